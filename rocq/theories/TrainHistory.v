(** Training that goes on, with calls on the network in between. *)
From Coq Require Import ZArith List Bool String Lia Permutation.
From Verif Require Import Num GoBase VarModel Tuples GoFacts VEModel NetModel SpecNet NetNew NetRow TrainModel SpecTrain TrainFacts TrainUpdate TrainContinue SpecTrainer NetHistory.
Import ListNotations.
Open Scope string_scope.
Open Scope list_scope.
Open Scope Z_scope.

Section History.
Context {A : Type} {N : NumOps A}.
Notation net := (network A).

Definition dressed (n : net) P a b : net := with_solver (with_policies n P) a b.
Lemma update_dressed (n : net) P a b t : update_network (dressed n P a b) t = (dressed (fst (update_network n t)) P a b, snd (update_network n t)).
Proof. unfold update_network. cbn [dressed with_solver with_policies n_factors n_vars]. destruct (run_steps _ _ _) as [fs r]. reflexivity. Qed.
Lemma add_dressed (n : net) P a b t s u : add_sample (dressed n P a b) t s u = add_sample n t s u.
Proof. reflexivity. Qed.
Lemma call_dressed (n : net) P a b c : exists P' a' b', after_call (dressed n P a b) c = dressed n P' a' b'.
Proof.
  destruct (after_last (dressed n P a b) [c]) as [_ (P' & a' & b' & E)]. exists P', a', b'. unfold after in E. cbn [fold_left] in E. rewrite E. reflexivity.
Qed.

Variable n : net.
Hypothesis Hta : trainable n.

(** The trained networks differ from [n] in tables only, so samples are counted in the same way. *)
Lemma row_index_keeps (f f' : nfactor A) s : keeps f f' -> nf_row_index f' s = nf_row_index f s.
Proof. intros (_ & _ & E & _). unfold nf_row_index. rewrite E. auto. Qed.
Lemma foldM_ext_in {S X} (f g : S -> X -> gores S) l : (forall s x, In x l -> f s x = g s x) -> forall s, foldM f s l = foldM g s l.
Proof.
  induction l as [|x l IH]; intros H s; auto. cbn [foldM]. rewrite H by (simpl; auto). destruct (g s x); cbn [gbind]; auto. apply IH. intros; apply H; simpl; auto.
Qed.
Lemma shaped_fac m v : n_vars m = n_vars n -> shaped n (n_factors m) -> In v (n_vars n) -> exists f, node_factor m v = Ok f /\ keeps (fac n v) f.
Proof.
  intros Hv Hs Hin. destruct (factor_index n Hta v Hin) as (k & Ek & Hk). destruct (shaped_at n (n_factors m) k _ Hs Hk) as (f & Hf & Hkp). exists f. split; auto. unfold node_factor. rewrite Ek, Hf. auto.
Qed.
Lemma add_shaped m t s u : n_vars m = n_vars n -> shaped n (n_factors m) -> add_sample m t s u = add_sample n t s u.
Proof.
  intros Hv Hs. unfold add_sample. rewrite Hv. apply foldM_ext_in. intros t' [i v] Hin. apply in_combine_r in Hin.
  destruct (shaped_fac m v Hv Hs Hin) as (f & E & K). destruct (fac_spec n Hta v Hin) as (E0 & _).
  unfold add_node_sample. destruct (nodeType_eqb (nv_type v) Decision); auto. destruct (sget (tr_indices t') i) as [ix| |]; cbn [gbind]; auto.
  destruct (mapM (sget s) ix) as [sm| |]; cbn [gbind]; auto. destruct (match u with None => Ok [] | Some u0 => mapM (sget u0) ix end) as [us| |]; cbn [gbind]; auto.
  rewrite E, E0. cbn [gbind]. rewrite (row_index_keeps (fac n v) f) by auto. auto.
Qed.
Lemma update_shaped s t : counted n (fun _ => s) t -> n_vars (fst (update_network n t)) = n_vars n /\ shaped n (n_factors (fst (update_network n t))).
Proof.
  intros C. destruct (update_ok n Hta s t C) as [(fs & -> & _ & _ & _ & _ & K)|(fs & e & -> & _ & K)]; split; auto.
Qed.

(** The state after some calls: [s] are the samples added, the tables are those of the last update. *)
Record reached (s : list (sample A)) (m : net) (t : trainer A) : Prop := {
  re_count : counted n (fun _ => s) t;
  re_tables : exists base P a b, m = dressed base P a b /\ (base = n \/ exists s1 s2 t1, s = s1 ++ s2 /\ counted n (fun _ => s1) t1 /\ base = fst (update_network n t1))
}.
Lemma reached_add s m t smp : reached s m t -> valid_sample (n_vars n) smp -> exists t', add_sample m t (fst smp) (snd smp) = Ok t' /\ reached (s ++ [smp]) m t'.
Proof.
  intros [C (base & P & a & b & -> & H)] Hsmp. destruct (add_sample_ok n Hta smp Hsmp (fun _ => s) t C) as (t' & E & C'). exists t'. rewrite add_dressed. split.
  - destruct H as [->|(s1 & s2 & t1 & _ & C1 & ->)]; auto. destruct (update_shaped s1 t1 C1) as [H1 H2]. rewrite add_shaped; auto.
  - constructor; auto. exists base, P, a, b. split; auto. destruct H as [->|(s1 & s2 & t1 & -> & C1 & ->)]; auto. right. exists s1, (s2 ++ [smp]), t1. rewrite app_assoc. auto.
Qed.
Lemma reached_update s m t : reached s m t -> exists P a b, update_network m t = (dressed (fst (update_network n t)) P a b, snd (update_network n t)) /\ reached s (dressed (fst (update_network n t)) P a b) t.
Proof.
  intros [C (base & P & a & b & -> & H)]. exists P, a, b. rewrite update_dressed. assert (G : update_network base t = update_network n t).
  { destruct H as [->|(s1 & s2 & t1 & -> & C1 & ->)]; auto. apply (update_again n Hta s1 s2); auto. }
  rewrite G. split; auto. constructor; auto. exists (fst (update_network n t)), P, a, b. split; auto. right. exists s, [], t. rewrite app_nil_r. auto.
Qed.
Lemma reached_call s m t c : reached s m t -> reached s (after_call m c) t.
Proof.
  intros [C (base & P & a & b & -> & H)]. destruct (call_dressed base P a b c) as (P' & a' & b' & ->). constructor; auto. exists base, P', a', b'. auto.
Qed.
Lemma update_result s t : counted n (fun _ => s) t -> forall p, snd (update_network n t) <> Panic p.
Proof. intros C p. destruct (update_ok n Hta s t C) as [(fs & -> & _)|(fs & e & -> & _)]; discriminate. Qed.

Lemma run_reached cs : (forall smp, In smp (added cs) -> valid_sample (n_vars n) smp) -> forall s m t, reached s m t ->
  exists m' t' rs, run_trainer m t cs = Ok (m', t', rs) /\ reached (s ++ added cs) m' t'.
Proof.
  induction cs as [|c cs IH]; intros Hval s m t Hr.
  - exists m, t, []. cbn [added flat_map]. rewrite app_nil_r. auto.
  - destruct c as [smp| |c]; cbn [run_trainer].
    + destruct (reached_add s m t smp Hr) as (t' & -> & Hr'); [apply Hval; simpl; auto|]. cbn [gbind]. destruct (IH (fun x Hx => Hval x (or_intror Hx)) _ _ _ Hr') as (m' & t2 & rs & -> & H).
      exists m', t2, rs. split; auto. change (added (TAdd smp :: cs)) with ([smp] ++ added cs). rewrite app_assoc. auto.
    + destruct (reached_update s m t Hr) as (P & a & b & -> & Hr'). destruct (IH Hval _ _ _ Hr') as (m' & t2 & rs & -> & H). pose proof (update_result s t (re_count _ _ _ Hr)) as NP.
      destruct (snd (update_network n t)) as [u|e|p]; [| |exfalso; apply (NP p); auto]; cbn [gbind]; do 3 eexists; split; try reflexivity; exact H.
    + apply (IH Hval). apply reached_call. auto.
Qed.
Lemma run_app cs cs' m t : run_trainer m t (cs ++ cs') = let! (m1, t1, r1) := run_trainer m t cs in let! (m2, t2, r2) := run_trainer m1 t1 cs' in Ok (m2, t2, r1 ++ r2).
Proof.
  revert m t. induction cs as [|c cs IH]; intros m t; cbn [List.app run_trainer gbind].
  - destruct (run_trainer m t cs') as [[[m2 t2] r2]| |]; auto.
  - destruct c as [smp| |c]; auto.
    + destruct (add_sample m t (fst smp) (snd smp)); cbn [gbind]; auto.
    + destruct (update_network m t) as [m1 r]. destruct r as [u|e|p]; auto; rewrite IH; destruct (run_trainer m1 t cs) as [[[m2 t2] r2]| |]; cbn [gbind]; auto; destruct (run_trainer m2 t2 cs') as [[[m3 t3] r3]| |]; auto.
Qed.
Lemma added_app cs cs' : added (A := A) (cs ++ cs') = added cs ++ added cs'.
Proof. unfold added. apply flat_map_app. Qed.

(** The tables after the calls are those of the last update. *)
Theorem trained_history cs t0 : new_trainer n = Ok t0 -> (forall smp, In smp (added cs) -> valid_sample (n_vars n) smp) ->
  exists m t rs r P a b, run_trainer n t0 (cs ++ [TUpdate]) = Ok (m, t, rs ++ [r]) /\ List.length rs = List.length (filter (fun c => match c with TUpdate => true | _ => false end) cs) /\
    m = dressed (fst (train n (added cs))) P a b /\ r = snd (train n (added cs)).
Proof.
  intros E0 Hval. destruct (new_trainer_ok n Hta) as (t1 & E1 & C0). assert (t1 = t0) by congruence. subst t1.
  assert (R0 : reached [] n t0). { constructor; auto. exists n, (n_policies n), (n_ve n), (n_names n). split; auto. destruct n; reflexivity. }
  destruct (run_reached cs Hval [] n t0 R0) as (m & t & rs & E & R). cbn [List.app] in R. destruct (reached_update _ _ _ R) as (P & a & b & EU & _).
  destruct (train_ok n Hta (added cs) Hval) as (t' & C' & ET). pose proof (counted_unique n _ _ _ (re_count _ _ _ R) C') as <-.
  exists (dressed (fst (train n (added cs))) P a b), t, rs, (snd (train n (added cs))), P, a, b. rewrite run_app, E. cbn [gbind run_trainer]. rewrite EU, ET.
  split; [|split; auto].
  - pose proof (update_result _ t (re_count _ _ _ R)) as NP. destruct (snd (update_network n t)) as [u|e|p]; auto. exfalso. apply (NP p). auto.
  - clear - E. revert E. generalize n t0. revert rs. induction cs as [|c cs IH]; intros rs m0 t1 E; cbn [run_trainer] in E; [injection E as _ _ <-; auto|]. destruct c as [smp| |c]; cbn [filter List.length].
    + destruct (add_sample m0 t1 (fst smp) (snd smp)); try discriminate. cbn [gbind] in E. eauto.
    + destruct (update_network m0 t1) as [m1 r]. destruct r as [u|e|p]; try discriminate; destruct (run_trainer m1 t1 cs) as [[[m2 t2] r2]| |] eqn:E2; try discriminate; cbn [gbind] in E; injection E as <- <- <-; cbn [List.length]; f_equal; eauto.
    + eauto.
Qed.
(** Calls after the last update that are no further updates leave the tables alone. *)
Theorem kept_tables cs m t m' t' rs : run_trainer m t cs = Ok (m', t', rs) -> (forall c, In c cs -> c <> TUpdate) -> n_factors m' = n_factors m /\ n_vars m' = n_vars m.
Proof.
  intros E H. revert m t m' t' rs E. induction cs as [|c cs IH]; intros m t m' t' rs E; cbn [run_trainer] in E; [injection E as <- _ _; auto|].
  assert (H' : forall c0, In c0 cs -> c0 <> TUpdate) by (intros c0 Hc; apply H; simpl; auto).
  destruct c as [smp| |c].
  - destruct (add_sample m t (fst smp) (snd smp)); try discriminate. cbn [gbind] in E. eapply IH; eauto.
  - exfalso. apply (H TUpdate); simpl; auto.
  - destruct (IH H' _ _ _ _ _ E) as [-> ->]. destruct (after_last m [c]) as [_ (P' & a' & b' & E2)]. unfold after in E2. cbn [fold_left] in E2. rewrite E2. auto.
Qed.
End History.

Section Policies.
Context {A : Type} {N : NumOps A}.
Lemma same_policies (m : network A) t cs m' t' rs : run_trainer m t cs = Ok (m', t', rs) -> (forall sc st, ~ In (CSolvePolicies sc st) (solved_by cs)) -> n_policies m' = n_policies m.
Proof.
  revert m t rs. induction cs as [|c cs IH]; intros m t rs E H; cbn [run_trainer] in E; [injection E as <- _ _; auto|]. destruct c as [smp| |c].
  - destruct (add_sample m t (fst smp) (snd smp)); try discriminate. cbn [gbind] in E. eapply IH; eauto.
  - destruct (update_network m t) as [m1 r] eqn:EU. assert (H1 : n_policies m1 = n_policies m) by (unfold update_network in EU; destruct (run_steps _ _ _) as [fs q]; injection EU as <- _; auto). rewrite <- H1.
    destruct r as [u|e|p]; try discriminate; destruct (run_trainer m1 t cs) as [[[m2 t2] r2]| |] eqn:E2; try discriminate; cbn [gbind] in E; injection E as <- <- <-; eapply IH; eauto.
  - assert (Hc : forall sc st, c <> CSolvePolicies sc st) by (intros sc st ->; apply (H sc st); simpl; auto).
    destruct (after_other m c Hc) as (a & b & Ea). rewrite Ea in E. rewrite (IH _ _ _ E); auto. intros sc st Hin. apply (H sc st). simpl. auto.
Qed.
End Policies.
