(** Sums over joint states of named variables. *)
From Coq Require Import ZArith List Bool String Lia Permutation QArith Qcanon.
From Verif Require Import Num GoBase VarModel SpecFactor XnumFacts NetModel SpecNet NetSums NetMass.
Import ListNotations.
Open Scope string_scope.
Open Scope list_scope.
Open Scope Z_scope.

Definition nsum (F : nstate -> Qc) (L : list nvar) (s : nstate) : Qc := qsum (map F (joint_states L s)).
Lemma nsum_nil F s : nsum F [] s = F s.
Proof. unfold nsum. simpl. ring. Qed.
Lemma nsum_cons F v L s : nsum F (v :: L) s = qsum (map (fun k => nsum F L (nupd s (nv_name v) k)) (seq 0 (List.length (nv_outcomes v)))).
Proof. unfold nsum. cbn [joint_states]. rewrite qsum_flat_map. reflexivity. Qed.
Lemma nsum_ext F G L s : (forall s', In s' (joint_states L s) -> F s' = G s') -> nsum F L s = nsum G L s.
Proof. intros H. apply qsum_ext. exact H. Qed.
Lemma nsum_app F L L' s : nsum F (L ++ L') s = nsum (nsum F L') L s.
Proof.
  revert s. induction L as [|v L IH]; intros s.
  - rewrite nsum_nil. reflexivity.
  - cbn [app]. rewrite !nsum_cons. apply qsum_ext. intros k _. apply IH.
Qed.
Lemma nsum_scale c F L s : nsum (fun s => c * F s)%Qc L s = (c * nsum F L s)%Qc.
Proof. apply qsum_scale. Qed.
Lemma nsum_add F G L s : nsum (fun s => F s + G s)%Qc L s = (nsum F L s + nsum G L s)%Qc.
Proof. apply qsum_add. Qed.

(** States only differ in the listed variables. *)
Lemma joint_states_same L : forall s s' y, In s' (joint_states L s) -> ~ In y (map nv_name L) -> s' y = s y.
Proof.
  induction L as [|v L IH]; intros s s' y H Hy.
  - destruct H as [<-|[]]. auto.
  - cbn [joint_states] in H. apply in_flat_map in H. destruct H as (k & Hk & H). simpl in Hy.
    rewrite (IH _ _ y H) by tauto. unfold nupd. destruct (String.eqb_spec y (nv_name v)); auto. exfalso. subst. tauto.
Qed.
Lemma joint_states_range L : NoDup (map nv_name L) -> forall s s' v, In s' (joint_states L s) -> In v L -> (s' (nv_name v) < List.length (nv_outcomes v))%nat.
Proof.
  induction L as [|w L IH]; intros Hnd s s' v H Hv; [destruct Hv|]. inversion Hnd as [|? ? Hn Hnd']. subst.
  cbn [joint_states] in H. apply in_flat_map in H. destruct H as (k & Hk & H). apply in_seq in Hk. destruct Hv as [->|Hv].
  - rewrite (joint_states_same L _ _ _ H Hn). unfold nupd. rewrite String.eqb_refl. lia.
  - eapply IH; eauto.
Qed.

(** A function of the state that looks at some names only. *)
Definition looks_at (F : nstate -> Qc) (P : string -> Prop) : Prop := forall s s', (forall y, P y -> s y = s' y) -> F s = F s'.
Lemma looks_proper F P : looks_at F P -> nproper F.
Proof. intros H s s' E. apply H. auto. Qed.
Lemma proper_looks F : nproper F -> looks_at F (fun _ => True).
Proof. intros H s s' E. apply H. auto. Qed.
Lemma looks_weaken F (P Q : string -> Prop) : looks_at F P -> (forall y, P y -> Q y) -> looks_at F Q.
Proof. intros H HPQ s s' E. apply H. auto. Qed.
Lemma looks_mult F G P : looks_at F P -> looks_at G P -> looks_at (fun s => F s * G s)%Qc P.
Proof. intros H1 H2 s s' E. rewrite (H1 s s' E), (H2 s s' E). auto. Qed.
Lemma looks_qprod {X} (F : X -> nstate -> Qc) l P : (forall x, In x l -> looks_at (F x) P) -> looks_at (fun s => qprod (map (fun x => F x s) l)) P.
Proof. intros H s s' E. apply qprod_ext. intros x Hx. apply (H x Hx). auto. Qed.
Lemma looks_nupd F P s x k : looks_at F P -> ~ P x -> F (nupd s x k) = F s.
Proof. intros H Hx. apply H. intros y Hy. unfold nupd. destruct (String.eqb_spec y x); auto. subst. tauto. Qed.

(** The sum looks at what is not summed over. *)
Lemma nsum_looks F P L : looks_at F P -> looks_at (nsum F L) (fun y => P y /\ ~ In y (map nv_name L)).
Proof.
  revert F P. induction L as [|v L IH]; intros F P HF s s' E.
  - rewrite !nsum_nil. apply HF. intros y Hy. apply E. simpl. auto.
  - rewrite !nsum_cons. apply qsum_ext. intros k _. apply (IH F P HF). intros y [Hy Hn]. unfold nupd.
    destruct (String.eqb_spec y (nv_name v)); auto. apply E. split; auto. simpl. intros [H|H]; auto.
Qed.

Lemma nsum_pull G F L s P : looks_at G P -> (forall y, P y -> ~ In y (map nv_name L)) -> nsum (fun s => G s * F s)%Qc L s = (G s * nsum F L s)%Qc.
Proof.
  intros HG HP. rewrite (nsum_ext _ (fun s' => G s * F s')%Qc).
  - apply nsum_scale.
  - intros s' Hs'. f_equal. apply HG. intros y Hy. eapply joint_states_same; eauto.
Qed.

Lemma nsum_perm F L L' : nproper F -> Permutation L L' -> NoDup (map nv_name L) -> forall s, nsum F L s = nsum F L' s.
Proof.
  intros HF P. induction P as [|v L L' P IH|v w L|L L' L'' P1 IH1 P2 IH2]; intros Hnd s; auto.
  - rewrite !nsum_cons. apply qsum_ext. intros k _. apply IH. inversion Hnd; auto.
  - rewrite !nsum_cons. erewrite qsum_ext by (intros k _; rewrite nsum_cons; reflexivity). rewrite qsum_swap.
    apply qsum_ext. intros j _. rewrite nsum_cons. apply qsum_ext. intros k _.
    apply (nsum_looks F (fun _ => True)); [apply proper_looks; auto|]. intros y _. apply nupd_comm.
    inversion Hnd as [|? ? Hn _]. simpl in Hn. intros E. apply Hn. auto.
  - rewrite IH1 by auto. apply IH2. eapply Permutation_NoDup; [apply Permutation_map; eauto|auto].
Qed.

(** Conditional distributions, each looking only at itself and at others of smaller rank, sum to one. *)
Section One.
Variable vars : list nvar.
Hypothesis Hpos : forall v, In v vars -> nv_outcomes v <> [].
Definition in_states (s : nstate) : Prop := forall v, In v vars -> (s (nv_name v) < List.length (nv_outcomes v))%nat.
Lemma nowhere_in : in_states nowhere.
Proof. intros v Hv. specialize (Hpos v Hv). unfold nowhere. destruct (nv_outcomes v); [congruence|simpl; lia]. Qed.
Hypothesis Hnames : NoDup (map nv_name vars).
Lemma same_var v w : In v vars -> In w vars -> nv_name v = nv_name w -> v = w.
Proof.
  revert Hnames. clear. induction vars as [|x l IH]; intros Hn; [intros []|]. intros [->|Hv] [->|Hw] E; auto; inversion Hn as [|? ? H1 H2]; subst; auto.
  - exfalso. apply H1. rewrite E. apply in_map. auto.
  - exfalso. apply H1. rewrite <- E. apply in_map. auto.
Qed.
Lemma joint_in L s s' : incl L vars -> NoDup (map nv_name L) -> in_states s -> In s' (joint_states L s) -> in_states s'.
Proof.
  intros Hi Hnd Hs H v Hv. destruct (in_dec string_dec (nv_name v) (map nv_name L)) as [Hin|Hno].
  - apply in_map_iff in Hin. destruct Hin as (w & E & Hw). assert (w = v) by (apply same_var; auto). subst w. eapply joint_states_range; eauto.
  - rewrite (joint_states_same L s s' _ H Hno). auto.
Qed.
Lemma nupd_in s v k : In v vars -> in_states s -> (k < List.length (nv_outcomes v))%nat -> in_states (nupd s (nv_name v) k).
Proof.
  intros Hv Hs Hk w Hw. unfold nupd. destruct (String.eqb_spec (nv_name w) (nv_name v)) as [E|E]; auto. apply same_var in E; auto. subst w. auto.
Qed.

(** A conditional distribution: its variable, its value in a state, and the names it looks at. *)
Record cond : Type := mkCond { c_var : nvar; c_val : nstate -> Qc; c_scope : list string }.
Definition sums_to_one (c : cond) : Prop :=
  forall s, in_states s -> qsum (map (fun k => c_val c (nupd s (nv_name (c_var c)) k)) (seq 0 (List.length (nv_outcomes (c_var c))))) = 1%Qc.
Record good_cond (c : cond) : Prop := {
  gc_in : In (c_var c) vars;
  gc_one : sums_to_one c;
  gc_looks : looks_at (c_val c) (fun y => In y (c_scope c))
}.
Definition c_name (c : cond) : string := nv_name (c_var c).
Definition weight_of_conds (C : list cond) (s : nstate) : Qc := qprod (map (fun c => c_val c s) C).

Lemma weight_app C D s : weight_of_conds (C ++ D) s = (weight_of_conds C s * weight_of_conds D s)%Qc.
Proof. unfold weight_of_conds. rewrite map_app. apply qprod_app. Qed.
Lemma weight_perm C D s : Permutation C D -> weight_of_conds C s = weight_of_conds D s.
Proof. intros H. apply qprod_perm. apply Permutation_map. auto. Qed.
Lemma weight_looks C (P : string -> Prop) : (forall c, In c C -> looks_at (c_val c) P) -> looks_at (weight_of_conds C) P.
Proof. apply (looks_qprod c_val). Qed.
Lemma weight_good C (P : string -> Prop) : (forall c, In c C -> good_cond c) -> (forall c y, In c C -> In y (c_scope c) -> P y) -> looks_at (weight_of_conds C) P.
Proof. intros H HP. apply weight_looks. intros c Hc. eapply looks_weaken; [apply (gc_looks c); auto|]. intros y Hy. eapply HP; eauto. Qed.

Theorem conds_one (rank : string -> nat) : forall k D, List.length D = k -> (forall c, In c D -> good_cond c) -> NoDup (map c_name D) ->
  (forall c y, In c D -> In y (c_scope c) -> y <> c_name c -> In y (map c_name D) -> (rank y < rank (c_name c))%nat) ->
  forall s, in_states s -> nsum (weight_of_conds D) (map c_var D) s = 1%Qc.
Proof.
  induction k as [|k IH]; intros D Hk Hg Hnd Hr s Hs.
  - destruct D; [|discriminate Hk]. cbn [map]. rewrite nsum_nil. reflexivity.
  - destruct (exists_max (fun c => rank (c_name c)) D) as (m & Hm & Hmax); [intros ->; discriminate Hk|].
    destruct (in_split _ _ Hm) as (D1 & D2 & ED). set (D' := D1 ++ D2).
    assert (HP : Permutation D (D' ++ [m])).
    { rewrite ED. unfold D'. rewrite <- app_assoc. apply Permutation_app_head. apply Permutation_cons_append. }
    assert (HD' : forall c, In c D' -> In c D) by (intros c Hc; apply (Permutation_in _ (Permutation_sym HP)); apply in_app_iff; auto).
    assert (Hnd' : NoDup (map c_name D' ++ [c_name m])).
    { change [c_name m] with (map c_name [m]). rewrite <- map_app. eapply Permutation_NoDup; [apply Permutation_map; exact HP|exact Hnd]. }
    assert (Hvn : forall l, map nv_name (map c_var l) = map c_name l) by (intros l; rewrite map_map; reflexivity).
    rewrite (nsum_perm _ (map c_var D) (map c_var D' ++ [c_var m])).
    2:{ eapply looks_proper. apply (weight_good D (fun _ => True)); auto. }
    2:{ change [c_var m] with (map c_var [m]). rewrite <- map_app. apply Permutation_map. exact HP. }
    2:{ rewrite Hvn. exact Hnd. }
    rewrite nsum_app. rewrite (nsum_ext _ (weight_of_conds D')).
    + apply IH; auto.
      * apply Permutation_length in HP. rewrite app_length in HP. simpl in HP. lia.
      * apply NoDup_remove_1 in Hnd'. rewrite app_nil_r in Hnd'. exact Hnd'.
      * intros c y Hc Hy Hne Hin. apply Hr; auto. apply in_map_iff in Hin. destruct Hin as (c' & <- & Hc'). apply in_map. auto.
    + intros s' Hs'. assert (Hin' : in_states s').
      { eapply joint_in; [| |exact Hs|exact Hs'].
        - intros v Hv. apply in_map_iff in Hv. destruct Hv as (c & <- & Hc). apply gc_in; auto.
        - rewrite Hvn. apply NoDup_remove_1 in Hnd'. rewrite app_nil_r in Hnd'. exact Hnd'. }
      rewrite nsum_cons. rewrite (qsum_ext _ (fun j => weight_of_conds D' s' * c_val m (nupd s' (c_name m) j))%Qc).
      * rewrite qsum_scale. rewrite (gc_one m (Hg m Hm)); auto. ring.
      * intros j _. rewrite nsum_nil. rewrite (weight_perm D (D' ++ [m]) _ HP), weight_app. unfold weight_of_conds at 2. cbn [map]. unfold qprod at 1. cbn [fold_right].
        rewrite Qcmult_1_r. f_equal. apply (looks_nupd _ (fun y => y <> c_name m)); [|tauto].
        apply weight_good; auto. intros c y Hc Hy ->. assert (Hne : c_name m <> c_name c).
        { intros E. apply NoDup_remove_2 in Hnd'. rewrite app_nil_r in Hnd'. apply Hnd'. rewrite E. apply in_map. auto. }
        specialize (Hr c (c_name m) (HD' c Hc) Hy Hne (in_map c_name D m Hm)). specialize (Hmax c (HD' c Hc)). lia.
Qed.

(** Variables that nothing else looks at can be left out. *)
Theorem drop_barren (rank : string -> nat) E L C D : (forall c, In c C -> good_cond c) -> (forall c, In c D -> good_cond c) ->
  NoDup (map nv_name (L ++ map c_var D)) -> incl L vars ->
  (forall c y, In c D -> In y (c_scope c) -> y <> c_name c -> (rank y < rank (c_name c))%nat) ->
  (forall c y, In c C -> In y (c_scope c) -> ~ In y (map c_name D)) ->
  looks_at E (fun y => ~ In y (map c_name D)) ->
  nsum (fun s => E s * weight_of_conds (C ++ D) s)%Qc (L ++ map c_var D) nowhere = nsum (fun s => E s * weight_of_conds C s)%Qc L nowhere.
Proof.
  intros HC HD Hnd HL Hr Hno HE. rewrite nsum_app. apply nsum_ext. intros s Hs.
  assert (Hvn : map nv_name (map c_var D) = map c_name D) by (rewrite map_map; reflexivity). rewrite map_app, Hvn in Hnd.
  rewrite (nsum_ext _ (fun s => (E s * weight_of_conds C s) * weight_of_conds D s)%Qc) by (intros s' _; rewrite weight_app; ring).
  rewrite (nsum_pull _ _ _ _ (fun y => ~ In y (map c_name D))).
  - rewrite (conds_one rank (List.length D)); auto; [ring| |].
    + clear - Hnd. induction (map nv_name L); auto. inversion Hnd; auto.
    + eapply joint_in; [exact HL| |exact nowhere_in|exact Hs]. clear - Hnd. induction (map nv_name L) as [|x l IH]; [constructor|].
      inversion Hnd as [|? ? H1 H2]. constructor; auto. intros Hq. apply H1. apply in_app_iff. auto.
  - apply looks_mult; auto. apply weight_good; auto.
  - intros y Hy. rewrite Hvn. exact Hy.
Qed.
End One.
