(** Networks that were saved and loaded again give the same answers. *)
From Coq Require Import ZArith List Bool String Lia.
From Verif Require Import Num GoBase VarModel GoFacts VEModel NetModel SpecNet NetNew SpecTrain TrainFacts TrainThms LogicModel LogicShape TextModel DocModel SpecDoc DocFacts DocRound SpecReload NetBare.
Import ListNotations.
Open Scope string_scope.
Open Scope list_scope.
Open Scope Z_scope.

Section Reload.
Context {A : Type} {N : NumOps A}.

Lemma new_fresh name info vars (fs : list (nfactor A)) n : net_new name info vars fs = Ok n -> n_names n = [] /\ n_ve n = None /\ n_policies n = [].
Proof.
  unfold net_new. destruct (collect_names vars); try discriminate. cbn [gbind]. destruct (foldM _ _ _) as [[f v]| |]; try discriminate. cbn [gbind]. destruct (prepare_utility_nodes _ _ _); try discriminate. cbn [gbind].
  intros E. injection E as <-. auto.
Qed.
Lemma nth_error_ext' {X} : forall (l l' : list X), (forall i, nth_error l i = nth_error l' i) -> l = l'.
Proof.
  induction l as [|x l IH]; intros [|y l'] H; auto; try (specialize (H 0%nat); discriminate H). f_equal; [specialize (H 0%nat); cbn in H; congruence|]. apply IH. intros i. apply (H (S i)).
Qed.
Lemma Forall2_nth_r {X Y} (R : X -> Y -> Prop) l l' : Forall2 R l l' -> forall i y, nth_error l' i = Some y -> exists x, nth_error l i = Some x /\ R x y.
Proof. induction 1; intros [|i] z E; simpl in *; try discriminate E; eauto. injection E as <-. eauto. Qed.

(** Factors in the order of the variables are linked position by position. *)
Lemma new_ordered name info vars (fs : list (nfactor A)) n : (forall v, In v vars -> nv_factor v = None) -> net_new name info vars fs = Ok n -> map nf_for fs = map nv_name vars ->
  forall i v, nth_error (n_vars n) i = Some v -> nv_factor v = Some i /\ exists f, nth_error fs i = Some f /\ nth_error (n_factors n) i = Some (linked_factor vars f).
Proof.
  intros Hnil E Ho i v Hv. destruct (new_api name info vars fs Hnil) as ([_ Hst] & _ & Hn). specialize (Hst (ex_intro _ n E)). destruct (Hn n E) as (_ & _ & _ & _ & Hvs & _ & Hl & _).
  destruct (Forall2_nth_r _ _ _ Hvs i v Hv) as (w & Hw & (E1 & _)).
  assert (Hnd : NoDup (map nv_name vars)) by apply Hst.
  assert (Hf : exists f, factor_for fs (nv_name w) = Some f).
  { assert (Hin : In (nv_name w) (map nf_for fs)) by (rewrite Ho; apply in_map; eapply nth_error_In; eauto). apply in_map_iff in Hin. destruct Hin as (f & Ef & Hf).
    unfold factor_for. destruct (find _ fs) as [g|] eqn:Eg; eauto. exfalso. apply (find_none _ _ Eg f) in Hf. rewrite Ef, String.eqb_refl in Hf. discriminate. }
  destruct Hf as (f & Ef). destruct (Hl w f (nth_error_In _ _ Hw) Ef) as (v' & k & V1 & V2 & V3 & V4).
  assert (v' = v). { rewrite <- E1, (var_named_in' _ v) in V1; [congruence| |eapply nth_error_In; eauto]. rewrite (Forall2_names _ _ Hvs). auto. } subst v'.
  assert (k = i); [|subst k; eauto]. assert (Efor : nf_for f = nv_name w). { unfold factor_for in Ef. apply find_some in Ef. destruct Ef as [_ Ef]. apply String.eqb_eq in Ef. auto. }
  apply (f_equal (option_map nf_for)) in V3. rewrite <- nth_error_map, Ho in V3. apply (f_equal (option_map nv_name)) in Hw. rewrite <- nth_error_map in Hw. cbn [option_map] in *.
  rewrite NoDup_nth_error in Hnd. apply Hnd; [apply nth_error_Some; congruence|congruence].
Qed.

(** The network is determined by its variables and factors. *)
Definition link_to (i : nat) (v : nvar) : nvar := mkNVar (nv_name v) (nv_type v) (nv_outcomes v) (nv_pos v) (nv_color v) (Some i).
Lemma new_exact name info vars (fs : list (nfactor A)) n : (forall v, In v vars -> nv_factor v = None) -> net_new name info vars fs = Ok n -> map nf_for fs = map nv_name vars ->
  n = mkNet name info (map (fun '(i, v) => link_to i v) (combine (seq 0 (List.length vars)) vars)) (map (linked_factor vars) fs) [] None [] (n_tui n).
Proof.
  intros Hnil E Ho. pose proof (new_ordered _ _ _ _ _ Hnil E Ho) as Hp. destruct (new_api name info vars fs Hnil) as (_ & _ & Hn). destruct (Hn n E) as (E1 & E2 & E3 & E4 & Hvs & Hfs & _). destruct (new_fresh _ _ _ _ _ E) as (E5 & _).
  destruct n as [nm inf vs fs' po ve names tui]. cbn [n_name n_info n_vars n_factors n_policies n_ve n_names n_tui] in *. subst. f_equal.
  - assert (Hp' : forall i v, nth_error vs i = Some v -> nv_factor v = Some (0 + i)%nat) by (intros i v Hv; apply (Hp i v Hv)). clear - Hvs Hp'. revert Hp'. generalize 0%nat as b. induction Hvs as [|w v l l' H _ IH]; intros b Hp'; auto. cbn [List.length seq combine map].
    rewrite <- (IH (S b)). 2:{ intros i x Hx. rewrite (Hp' (S i) x Hx). f_equal. lia. } f_equal. pose proof (Hp' 0%nat v eq_refl) as Hv. rewrite Nat.add_0_r in Hv. destruct H as (H1 & H2 & H3 & H4 & H5). destruct v. cbn in *. subst. auto.
  - apply nth_error_ext'. intros i. rewrite nth_error_map. destruct (nth_error vs i) as [v|] eqn:Ev.
    + destruct (Hp i v Ev) as (_ & f & -> & ->). auto.
    + assert (HL : (List.length fs <= i)%nat). { apply nth_error_None in Ev. apply (f_equal (@List.length string)) in Ho. rewrite !map_length in Ho. assert (List.length vs = List.length vars) by (clear - Hvs; induction Hvs; simpl; auto). lia. }
      assert (HL' : List.length fs' = List.length fs) by (clear - Hfs; induction Hfs; simpl; auto). rewrite (proj2 (nth_error_None fs i)) by lia. rewrite (proj2 (nth_error_None fs' i)) by lia. auto.
Qed.
(** Nodes at other positions *)
Definition move (v : nvar) (p : Z * Z) : nvar := mkNVar (nv_name v) (nv_type v) (nv_outcomes v) p (nv_color v) (nv_factor v).
Definition moved (vars : list nvar) (positions : list (Z * Z)) : list nvar := map (fun '(v, p) => move v p) (combine vars positions).
Lemma new_moved name info vars (fs : list (nfactor A)) n positions : (forall v, In v vars -> nv_factor v = None) -> net_new name info vars fs = Ok n -> map nf_for fs = map nv_name vars -> full_rows vars fs ->
  List.length positions = List.length vars ->
  (forall v, In v (moved vars positions) -> nv_factor v = None) /\ map nf_for fs = map nv_name (moved vars positions) /\ full_rows (moved vars positions) fs /\
  net_new name info (moved vars positions) fs = Ok (mkNet (n_name n) (n_info n) (moved (n_vars n) positions) (n_factors n) (n_policies n) (n_ve n) (n_names n) (n_tui n)).
Proof.
  intros Hnil E Ho Hr HL. set (vars2 := moved vars positions).
  assert (Hout : Forall2 same_outline vars vars2). { unfold vars2, moved. clear - HL. revert positions HL. induction vars as [|v l IH]; intros [|p ps] HL; cbn; try discriminate HL; constructor; auto. split; auto. }
  assert (Hback : forall v, In v vars2 -> exists w p, In w vars /\ v = move w p). { intros v Hv. unfold vars2, moved in Hv. apply in_map_iff in Hv. destruct Hv as ([w p] & <- & Hv). exists w, p. split; auto. eapply in_combine_l; eauto. }
  assert (Hnil2 : forall v, In v vars2 -> nv_factor v = None). { intros v Hv. destruct (Hback v Hv) as (w & p & Hw & ->). apply (Hnil w Hw). }
  pose proof (outline_names vars vars2 Hout) as Hnames. assert (Ho2 : map nf_for fs = map nv_name vars2) by congruence.
  split; auto. split; auto. split. { intros v Hv. destruct (Hback v Hv) as (w & p & Hw & ->). apply (Hr w Hw). }
  destruct (new_api name info vars fs Hnil) as ([_ Hst] & _ & Hn). specialize (Hst (ex_intro _ n E)).
  assert (Hpair : forall v, In v vars -> exists f f2, factor_for fs (nv_name v) = Some f /\ factor_for fs (nv_name v) = Some f2 /\ nf_given f2 = nf_given f). { intros v Hv. destruct (Hr v Hv) as (_ & f & Ef & _). eauto. }
  destruct (new_api name info vars2 fs Hnil2) as ([Hok _] & _ & Hn2). destruct (Hok (outline_valid vars vars2 fs fs Hout Hpair Hst)) as (n2 & E2). rewrite E2. f_equal.
  rewrite (new_exact _ _ _ _ _ Hnil2 E2 Ho2), (new_exact _ _ _ _ _ Hnil E Ho). cbn [n_name n_info n_vars n_factors n_policies n_ve n_names n_tui].
  destruct (Hn n E) as (_ & _ & _ & _ & _ & _ & _ & T1), (Hn2 n2 E2) as (_ & _ & _ & _ & _ & _ & _ & T2).
  rewrite (outline_total vars vars2 fs fs Hout Hpair _ _ Hst T1 T2).
  assert (Hno : forall x, num_outcomes vars2 x = num_outcomes vars x). { intros x. unfold num_outcomes. pose proof (outline_named vars vars2 Hout x) as H. destruct (var_named vars2 x), (var_named vars x); try tauto. destruct H as (_ & _ & ->). auto. }
  f_equal.
  - unfold vars2, moved. clear - HL. rewrite map_length, combine_length, HL, Nat.min_id. generalize 0%nat as b. revert positions HL. induction vars as [|v l IH]; intros [|p ps] HL b; cbn; try discriminate HL; auto. f_equal. apply IH. auto.
  - apply map_ext. intros f. unfold linked_factor. rewrite Hno. f_equal. apply map_ext. intros g. rewrite Hno. auto.
Qed.

(** What can be written without loss: nodes with outcomes and full rows, and no empty tables *)
Lemma storable_rows name info vars (fs : list (nfactor A)) n : (forall v, In v vars -> nv_factor v = None) -> net_new name info vars fs = Ok n -> map nf_for fs = map nv_name vars -> storable n ->
  full_rows vars fs /\ forall f, In f (n_factors n) -> nf_table f <> Some [].
Proof.
  intros Hnil E Ho Hs. pose proof (new_exact _ _ _ _ _ Hnil E Ho) as Ex. pose proof (new_ordered _ _ _ _ _ Hnil E Ho) as Hp. destruct (new_api name info vars fs Hnil) as ([_ Hst] & _ & Hn). specialize (Hst (ex_intro _ n E)). destruct (Hn n E) as (_ & _ & _ & _ & Hvs & Hfs & _).
  assert (Hnd : NoDup (map nf_for fs)) by (rewrite Ho; apply Hst). split.
  - intros w Hw. apply In_nth_error in Hw. destruct Hw as (i & Hi). destruct (Forall2_nth_l _ _ _ Hvs i w Hi) as (v & Hv & (S1 & S2 & S3 & _)). destruct (Hs v (nth_error_In _ _ Hv)) as (Hne & f & Ef & Hr & _). rewrite S3 in *. split; auto.
    destruct (Hp i v Hv) as (K1 & g & K2 & K3). unfold factor_of in Ef. rewrite K1, K3 in Ef. injection Ef as <-. cbn [linked_factor nf_table] in Hr. exists g. split; auto.
    assert (Efor : nf_for g = nv_name w). { apply (f_equal (option_map nf_for)) in K2. rewrite <- nth_error_map, Ho, nth_error_map, Hi in K2. cbn in K2. congruence. }
    rewrite <- Efor. apply nth_error_In in K2. clear - K2 Hnd. unfold factor_for. induction fs as [|h l IH]; [destruct K2|]. cbn [find]. inversion Hnd as [|? ? Hni Hnd']; subst. destruct K2 as [->|K2]; [rewrite String.eqb_refl; auto|].
    destruct (String.eqb_spec (nf_for h) (nf_for g)) as [Q|Q]; auto. exfalso. apply Hni. rewrite Q. apply in_map. auto.
  - intros f Hf. apply In_nth_error in Hf. destruct Hf as (i & Hi). assert (HLi : (i < List.length (n_vars n))%nat).
    { assert (i < List.length (n_factors n))%nat by (apply nth_error_Some; congruence). apply (f_equal (@List.length string)) in Ho. rewrite !map_length in Ho. assert (List.length (n_vars n) = List.length vars) by (clear - Hvs; induction Hvs; simpl; auto). assert (List.length (n_factors n) = List.length fs) by (clear - Hfs; induction Hfs; simpl; auto). lia. }
    destruct (nth_error (n_vars n) i) as [v|] eqn:Hv; [|apply nth_error_None in Hv; lia]. destruct (Hs v (nth_error_In _ _ Hv)) as (_ & g & Eg & _ & Hg). destruct (Hp i v Hv) as (K1 & _). unfold factor_of in Eg. rewrite K1, Hi in Eg. congruence.
Qed.

Section Trip.
Variables (name info : string) (vars : list nvar) (factors : list (nfactor A)) (n : network A).
Hypothesis Hnil : forall v, In v vars -> nv_factor v = None.
Hypothesis Hnew : net_new name info vars factors = Ok n.
Hypothesis Hord : map nf_for factors = map nv_name vars.
Hypothesis Hrows : full_rows vars factors.

Theorem reload_bare reg m : like_new reg -> only_tables_differ n m -> (forall f, In f (n_factors m) -> nf_table f <> Some []) ->
  exists doc n', to_yaml m = Ok doc /\ fst (from_yaml reg doc) = Ok n' /\ Forall2 same_but_color (n_vars m) (n_vars n') /\ (forall v, In v (n_vars n') -> nv_color v = "") /\ bare n' = bare m.
Proof.
  intros Hreg Hd Hne. destruct (round_trip_built name info vars factors n Hnil Hnew Hrows reg m Hreg Hd) as (doc & n' & E1 & E2 & E3 & E4 & E5 & E6 & _ & E8 & vars2 & factors2 & Hnil2 & Hnew2 & Hord2 & Hne2).
  exists doc, n'. split; auto. split; auto. split; [clear - E6; induction E6 as [|a b l l' [H _] _ IH]; constructor; auto|]. split; auto. destruct (new_fresh _ _ _ _ _ Hnew) as (F1 & F2 & F3), (new_fresh _ _ _ _ _ Hnew2) as (F4 & F5 & F6).
  destruct Hd as (_ & _ & Dv & Dp & De & Dn & _ & Df).
  assert (Hp : forall i v, nth_error (n_vars n) i = Some v -> nv_factor v = Some i) by (intros i v Hv; apply (new_ordered _ _ _ _ _ Hnil Hnew Hord i v Hv)).
  assert (Hp2 : forall i v, nth_error (n_vars n') i = Some v -> nv_factor v = Some i) by (intros i v Hv; apply (new_ordered _ _ _ _ _ Hnil2 Hnew2 Hord2 i v Hv)). rewrite <- Dv in Hp.
  assert (HL : List.length (n_factors m) = List.length (n_vars m)).
  { destruct (new_api name info vars factors Hnil) as (_ & _ & Hn). destruct (Hn n Hnew) as (_ & _ & _ & _ & Hvs & Hfs & _). rewrite Dv.
    assert (G : forall (X Y : Type) (R : X -> Y -> Prop) l l', Forall2 R l l' -> List.length l = List.length l') by (induction 1; simpl; auto).
    rewrite <- (G _ _ _ _ _ Df), <- (G _ _ _ _ _ Hfs), <- (G _ _ _ _ _ Hvs). apply (f_equal (@List.length string)) in Hord. rewrite !map_length in Hord. auto. }
  unfold bare. rewrite F4, F5, F6, E4, Dn, De, Dp, F1, F2, F3. f_equal.
  - clear - E6 Hp Hp2. assert (G : forall i, match nth_error (n_vars m) i, nth_error (n_vars n') i with Some v, Some v' => nv_factor v' = nv_factor v | _, _ => True end).
    { intros i. destruct (nth_error (n_vars m) i) as [v|] eqn:Ev, (nth_error (n_vars n') i) as [v'|] eqn:Ev'; auto. rewrite (Hp i v Ev), (Hp2 i v' Ev'). auto. }
    clear Hp Hp2. induction E6 as [|v v' l l' [(S1 & S2 & S3 & _) _] _ IH]; auto. cbn [map]. f_equal.
    + specialize (G 0%nat). cbn in G. unfold bare_var. congruence.
    + apply IH. intros i. apply (G (S i)).
  - assert (G : forall i, (i < List.length (n_vars m))%nat -> nth_error (n_factors n') i = nth_error (n_factors m) i).
    { intros i Hi. destruct (nth_error (n_vars m) i) as [v|] eqn:Ev; [|apply nth_error_None in Ev; lia]. destruct (Forall2_nth_l _ _ _ E6 i v Ev) as (v' & Ev' & _ & f & f' & G1 & G2 & G3).
      unfold factor_of in G1, G2. rewrite (Hp i v Ev) in G1. rewrite (Hp2 i v' Ev') in G2. rewrite G1, G2. f_equal. destruct G3 as (T1 & T2 & T3 & T4 & T5).
      assert (Et : nf_table f' = nf_table f).
      { pose proof (Hne f (nth_error_In _ _ G1)) as Hf. assert (Hf' : nf_table f' <> Some []).
        { destruct (new_api (n_name n) "" vars2 factors2 Hnil2) as (_ & _ & Hn). destruct (Hn n' Hnew2) as (_ & _ & _ & _ & _ & Hfs & _). destruct (Forall2_nth_r _ _ _ Hfs i f' G2) as (g & Hg & (_ & _ & ->)). apply Hne2. eapply nth_error_In; eauto. }
        destruct (nf_table f') as [[|x l]|], (nf_table f) as [[|y l']|]; cbn in T3; congruence. }
      destruct f, f'; cbn in *; congruence. }
    apply nth_error_ext'. intros i. destruct (Nat.lt_ge_cases i (List.length (n_vars m))) as [Hi|Hi]; [apply G; auto|].
    assert (HLv : List.length (n_vars n') = List.length (n_vars m)). { clear - E6. induction E6; simpl; auto. }
    rewrite (proj2 (nth_error_None (n_factors n') i)) by lia. rewrite (proj2 (nth_error_None (n_factors m) i)) by lia. auto.
Qed.
End Trip.
End Reload.
