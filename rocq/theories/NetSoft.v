(** Soft evidence: what observing a further variable below another one does. *)
From Coq Require Import ZArith List Bool String Lia Permutation QArith Qcanon.
From Verif Require Import Num GoBase VarModel GoFacts SpecFactor XnumFacts VEModel SpecVE NetModel SpecNet NetVars NetFactors NetSums NetQuery NetMass NetCor NetNew
  SpecAnswers NetJoint SpecGraph StateSums NetGraph NetMarkov NetChange NetReorder NetBayes SpecSoft.
Import ListNotations.
Open Scope string_scope.
Open Scope list_scope.
Open Scope Z_scope.

Section Soft.
Variable x : string.
Variable v : nvar.
Variable f : nfactor xnum.
Variables n n' : network xnum.
Hypothesis Hwr : with_report x v f n n'.
Hypothesis Hwf : wf_network n.
Hypothesis Hwf' : wf_network n'.
Notation vars := (n_vars n).
Notation big := (v :: n_vars n).
Notation e := (nv_name v).
Notation Hvars := (wr_vars _ _ _ _ _ Hwr).
Notation Hfacs := (wr_factors _ _ _ _ _ Hwr).

Lemma report_new y : In y (map nv_name vars) -> y <> e.
Proof. apply (leaf_new n n' v Hwf' Hvars). Qed.
Lemma report_joint ign s : joint n' ign s = (joint n ign s * cond_prob big f s)%Qc.
Proof.
  destruct Hvars as (l & Hp & Hs). destruct Hfacs as (lf & Hfp & Hfs). rewrite (joint_open n), (joint_open n') by (apply Hwr).
  rewrite <- (leaf_weight n n' v f Hwf Hwf' Hvars (wr_kind _ _ _ _ _ Hwr) (wr_for _ _ _ _ _ Hwr)). rewrite (weight_reorder big (f :: n_factors n) lf) by auto. symmetry. apply weight_sig; auto. apply (leaf_sig' n n' v Hwf' Hvars).
Qed.
Lemma report_likelihood s i : s e = i -> cond_prob big f s = likelihood n' f i (s x).
Proof.
  intros E. unfold likelihood. rewrite (cond_sig big (n_vars n') f f); [|intros y _; apply sig_outcomes, (leaf_sig' n n' v Hwf' Hvars)|apply same_factor_refl].
  apply cond_looks. intros y Hy. rewrite (wr_given _ _ _ _ _ Hwr), (wr_for _ _ _ _ _ Hwr) in Hy. rewrite (wr_for _ _ _ _ _ Hwr). simpl in Hy. destruct Hy as [<-|[<-|[]]].
  - destruct (String.eqb_spec x e) as [E'|]; auto. exfalso. apply (report_new x); auto. apply Hwr.
  - rewrite String.eqb_refl. auto.
Qed.

(** The mass of a report together with an outcome of [x] and an event about the old variables. *)
Lemma report_mass ign event i k : looks_event event (fun y => y <> e) -> (i < List.length (nv_outcomes v))%nat ->
  mass n' ign (fun s => event s && (s e =? i)%nat && (s x =? k)%nat) = (likelihood n' f i k * mass n ign (fun s => event s && (s x =? k)%nat))%Qc.
Proof.
  intros Hl Hi. rewrite !mass_nsum. change (worldly_vars n) with (worldly_of vars). change (worldly_vars n') with (worldly_of (n_vars n')).
  destruct Hvars as (l & Hp & Hs). pose proof (wr_kind _ _ _ _ _ Hwr) as Hv. assert (Hxe : x <> e) by (apply report_new, Hwr).
  assert (J : looks_at (joint n ign) (fun y => y <> e)).
  { intros s s' E. rewrite !joint_open by apply Hwr. unfold tables_weight. apply (looks_qprod (fun g => cond_prob vars g) (filter (is_chance vars) (n_factors n)) (fun y => y <> e)); auto.
    intros g Hg. eapply looks_weaken; [apply cond_looks|]. intros y Hy. apply report_new. eapply (leaf_scope n Hwf); eauto. }
  rewrite <- (nsum_same _ (worldly_of l) (worldly_of (n_vars n'))) by (apply worldly_same; auto).
  rewrite (nsum_perm _ (worldly_of l) (worldly_of vars ++ [v])).
  - rewrite nsum_app, <- nsum_scale. apply nsum_ext. intros s Hin. rewrite nsum_cons.
    rewrite (qsum_ext _ (fun j => if (j =? i)%nat then (likelihood n' f i k * (flag (event s && (s x =? k)%nat) * joint n ign s))%Qc else 0%Qc)).
    + rewrite (qsum_pick (fun _ => _)) by auto. auto.
    + intros j _. rewrite nsum_nil, report_joint. rewrite (looks_nupd _ _ s e j J) by tauto.
      assert (U1 : nupd s e j e = j) by (unfold nupd; rewrite String.eqb_refl; auto). assert (U2 : nupd s e j x = s x) by (unfold nupd; destruct (String.eqb_spec x e); congruence).
      rewrite U1, U2. assert (U3 : event (nupd s e j) = event s) by (apply Hl; intros y Hy; unfold nupd; destruct (String.eqb_spec y e); congruence). rewrite U3.
      destruct (Nat.eqb_spec j i) as [->|]; [|rewrite andb_false_r; unfold flag; cbn [andb]; ring]. rewrite andb_true_r.
      rewrite (report_likelihood (nupd s e i) i) by auto. rewrite U2. destruct (Nat.eqb_spec (s x) k) as [->|]; [ring|]. rewrite andb_false_r. unfold flag. ring.
  - intros s s' E. rewrite !report_joint. rewrite (J s s'), (Hl s s'), (cond_looks big f s s'), (E x), (E e); auto.
  - assert (P : Permutation (worldly_of l) (worldly_of big)) by (apply filter_perm, Permutation_sym; auto). rewrite P. unfold worldly_of at 1. cbn [filter]. unfold is_kind at 1. rewrite Hv. cbn [nodeType_eqb negb].
    apply Permutation_cons_append.
  - apply names_filter. eapply Permutation_NoDup; [apply Permutation_map; exact Hp|]. apply (leaf_names n n' v Hwf' Hvars).
Qed.

Hypothesis Hco : complete n.
Hypothesis Hnn : nonnegative n.
Hypothesis Hnn' : nonnegative n'.
Notation m := (num_outcomes vars x).
Notation no := (fun _ : string => false).

Lemma report_sig y : In y (map nv_name vars) -> sig vars y = sig (n_vars n') y.
Proof. intros Hy. rewrite <- (leaf_sig' n n' v Hwf' Hvars). symmetry. apply leaf_sig. apply report_new. auto. Qed.
Lemma report_agrees ev s : valid_observations n ev -> agrees (n_vars n') ev s = agrees vars ev s.
Proof.
  intros [_ H]. symmetry. apply sig_agrees. intros y Hy. apply report_sig. apply in_map_iff in Hy. destruct Hy as ([z o] & <- & Hin). destruct (H z o Hin) as (w & Hw & _). apply (named_in n _ w). auto.
Qed.
Lemma report_event ev : valid_observations n ev -> looks_event (agrees vars ev) (fun y => y <> e).
Proof.
  intros [_ H] s s' E. apply agrees_looks. intros y Hy. apply E. apply report_new. apply in_map_iff in Hy. destruct Hy as ([z o] & <- & Hin). destruct (H z o Hin) as (w & Hw & _). apply (named_in n _ w). auto.
Qed.
Lemma report_var : exists v', var_named (n_vars n') e = Some v' /\ nv_type v' = Chance /\ nv_outcomes v' = nv_outcomes v.
Proof.
  destruct (sig_named big (n_vars n') e v) as (v' & E & T & O); [apply (leaf_sig' n n' v Hwf' Hvars)|unfold var_named; simpl; rewrite String.eqb_refl; auto|].
  exists v'. rewrite T, (wr_kind _ _ _ _ _ Hwr). auto.
Qed.

Section Evidence.
Variable ev : list (string * string).
Variables (i : nat) (o : string).
Hypothesis Hv : valid_observations n ev.
Hypothesis Hi : nth_error (nv_outcomes v) i = Some o.
Hypothesis Hm : mass n no (agrees vars ev) <> 0%Qc.
Hypothesis Hask : askable n no ev x.
Notation p := (posterior n no ev x).
Notation L := (likelihood n' f i).
Definition report_total : Qc := qsum (map (fun k => p k * L k)%Qc (seq 0 m)).

Lemma report_valid : valid_observations n' (ev ++ [(e, o)]).
Proof.
  destruct report_var as (v' & E & T & O). apply (more_observations n' ev e o v' i); auto; try congruence.
  - apply (leaf_observations n n' v Hwf' Hvars). auto.
  - intros Hin. apply in_map_iff in Hin. destruct Hin as ([z w] & Ez & Hin). cbn [fst] in Ez. destruct (proj2 Hv z w Hin) as (u & Hu & _). apply (report_new z); [|auto]. apply (named_in n _ u). auto.
Qed.
Lemma report_askable y : askable n no ev y -> askable n' no (ev ++ [(e, o)]) y.
Proof.
  intros H. apply more_askable; [apply (leaf_askable n n' v f Hwf Hwf' (wr_open _ _ _ _ _ Hwr) Hvars Hfacs); auto|]. destruct H as ((w & Hw & _) & _). apply report_new. apply (named_in n _ w). auto.
Qed.
Lemma report_shown s : agrees (n_vars n') (ev ++ [(e, o)]) s = agrees vars ev s && (s e =? i)%nat.
Proof. destruct report_var as (v' & E & T & O). rewrite (agrees_more n' Hwf' ev e o v' i) by (auto; congruence). rewrite report_agrees; auto. Qed.
Lemma report_split event : mass n' no event = qsum (map (fun k => mass n' no (fun s => event s && (s x =? k)%nat)) (seq 0 m)).
Proof.
  destruct Hask as ((w & Hw & Ht) & _). destruct (sig_named vars (n_vars n') x w) as (w' & E & T & O); auto; [apply report_sig; apply Hwr|].
  rewrite (mass_cases n' Hwf' x w'); [|apply (var_named_in n' Hwf') in E; tauto|apply (var_named_in n' Hwf') in E; tauto|congruence].
  unfold num_outcomes. rewrite Hw, O. auto.
Qed.
Lemma report_less : (i < List.length (nv_outcomes v))%nat.
Proof. apply nth_error_Some. congruence. Qed.
Lemma part k : mass n no (fun s => agrees vars ev s && (s x =? k)%nat) = (mass n no (agrees vars ev) * p k)%Qc.
Proof. unfold posterior. field. auto. Qed.
Lemma report_known : mass n' no (agrees (n_vars n') (ev ++ [(e, o)])) = (mass n no (agrees vars ev) * report_total)%Qc.
Proof.
  rewrite (mass_same n' no _ (fun s => agrees vars ev s && (s e =? i)%nat)) by (intros; apply report_shown). rewrite report_split.
  unfold report_total. rewrite <- qsum_scale. apply qsum_ext. intros k _. rewrite report_mass, part; [ring|apply report_event; auto|apply report_less].
Qed.
Theorem report_answer k : posterior n' no (ev ++ [(e, o)]) x k = (p k * L k / report_total)%Qc.
Proof.
  unfold posterior at 1. rewrite report_known. rewrite (mass_same n' no _ (fun s => agrees vars ev s && (s e =? i)%nat && (s x =? k)%nat)) by (intros; rewrite report_shown; auto).
  rewrite report_mass, part by (auto using report_event, report_less). destruct (Qc_eq_dec report_total 0) as [->|Z]; [|field; auto].
  rewrite Qcmult_0_r. unfold Qcdiv. change (/ 0)%Qc with 0%Qc. ring.
Qed.
(** The probabilities of another variable, for each outcome of [x]. *)
Definition split_by y j k : Qc := (mass n no (fun s => agrees vars ev s && (s x =? k)%nat && (s y =? j)%nat) / mass n no (fun s => agrees vars ev s && (s x =? k)%nat))%Qc.
Theorem report_other y j : In y (map nv_name vars) -> report_total <> 0%Qc ->
  posterior n' no (ev ++ [(e, o)]) y j = qsum (map (fun k => (p k * L k / report_total) * split_by y j k)%Qc (seq 0 m)).
Proof.
  intros Hy Z. unfold posterior at 1. rewrite report_known. rewrite report_split. unfold Qcdiv at 1. rewrite <- qsum_scale_r. apply qsum_ext. intros k _.
  rewrite (mass_same n' no _ (fun s => (agrees vars ev s && (s y =? j)%nat) && (s e =? i)%nat && (s x =? k)%nat)).
  2:{ intros s _. rewrite report_shown. destruct (agrees vars ev s), (s y =? j)%nat, (s e =? i)%nat; auto. }
  rewrite report_mass; [|intros s s' E; rewrite (report_event ev Hv s s' E), (E y); auto; apply report_new; auto|apply report_less].
  rewrite (mass_same n no (fun s => agrees vars ev s && (s y =? j)%nat && (s x =? k)%nat) (fun s => agrees vars ev s && (s x =? k)%nat && (s y =? j)%nat)) by (intros s _; rewrite <- !andb_assoc; f_equal; apply andb_comm).
  unfold split_by. set (a := mass n no (fun s => agrees vars ev s && (s x =? k)%nat && (s y =? j)%nat)). rewrite part.
  destruct (Qc_eq_dec (p k) 0%Qc) as [Hb|Hb].
  - assert (a = 0%Qc) as ->; [|unfold Qcdiv; ring]. apply (mass_zero n Hnn (fun s => agrees vars ev s && (s x =? k)%nat)); [intros s H; apply andb_true_iff in H; tauto|]. rewrite part, Hb. ring.
  - field. auto.
Qed.
End Evidence.
End Soft.
