(** Writing a network as a YAML document and reading it again. *)
From Coq Require Import ZArith List Bool String Ascii Lia.
From Verif Require Import Num GoBase GoFacts VarModel NetModel SpecNet NetNew SpecTrain TrainFacts TrainThms LogicModel LogicShape TextModel DocModel SpecDoc TextFacts DocFacts.
Import ListNotations.
Open Scope string_scope.
Open Scope list_scope.
Open Scope Z_scope.

(** Networks with the same names, types and parents are accepted together. *)
Definition same_outline (v w : nvar) : Prop := nv_name w = nv_name v /\ nv_type w = nv_type v /\ nv_outcomes w = nv_outcomes v.
Section Outline.
Context {A : Type}.
Variables (vars vars2 : list nvar) (factors factors2 : list (nfactor A)).
Hypothesis Hv : Forall2 same_outline vars vars2.
Hypothesis Hf : forall v, In v vars -> exists f f2, factor_for factors (nv_name v) = Some f /\ factor_for factors2 (nv_name v) = Some f2 /\ nf_given f2 = nf_given f.

Lemma outline_named x : match var_named vars2 x, var_named vars x with Some a, Some b => same_outline b a | None, None => True | _, _ => False end.
Proof. clear Hf. unfold var_named. induction Hv as [|a b l l' H HF IH]; cbn [find]; auto. specialize (IH HF). destruct H as (E & H). rewrite E. destruct (String.eqb (nv_name a) x); [split; auto|exact IH]. Qed.
Lemma outline_kind x : kind vars2 x = kind vars x.
Proof. unfold kind. pose proof (outline_named x) as H. destruct (var_named vars2 x), (var_named vars x); try tauto. simpl. destruct H as (_ & -> & _). auto. Qed.
Lemma outline_names : map nv_name vars2 = map nv_name vars.
Proof. clear Hf. induction Hv as [|a b l l' (H & _) HF IH]; simpl; auto. rewrite IH by auto. congruence. Qed.
Lemma outline_back w : In w vars2 -> exists v, In v vars /\ same_outline v w.
Proof. intros H. apply (Forall2_in_r _ _ _ _ Hv H). Qed.
Lemma outline_forth v : In v vars -> exists w, In w vars2 /\ same_outline v w.
Proof. intros H. clear Hf. induction Hv as [|a b l l' R HF IH]; [destruct H|]. destruct H as [<-|H]; [exists b; simpl; auto|]. destruct (IH HF H) as (w & ? & ?). exists w. simpl; auto. Qed.

Lemma outline_collects v w : In v vars -> same_outline v w -> (collects vars2 factors2 w <-> collects vars factors v).
Proof.
  intros Hin (E1 & E2 & E3). destruct (Hf v Hin) as (f & f2 & F1 & F2 & Eg). unfold collects. rewrite E1, E2, F1, F2. split; intros (Ht & g & Eq & Hne & Hk); (split; [auto|]); injection Eq as <-.
  - exists f. rewrite Eg in *. split; auto. split; auto. intros x Hx. rewrite <- outline_kind. auto.
  - exists f2. rewrite Eg. split; auto. split; auto. intros x Hx. rewrite outline_kind. auto.
Qed.
Lemma outline_rewards v w : In v vars -> same_outline v w -> rewards vars factors v -> rewards vars2 factors2 w.
Proof.
  intros Hin (E1 & E2 & E3). destruct (Hf v Hin) as (f & f2 & F1 & F2 & Eg). unfold rewards. rewrite E1, E2, F1, F2. intros (Ht & g & Eq & Hne & Hk); (split; [auto|]); injection Eq as <-.
  exists f2. rewrite Eg. split; auto. split; auto. intros x Hx. rewrite outline_kind. auto.
Qed.

Lemma outline_valid : valid_structure vars factors -> valid_structure vars2 factors2.
Proof.
  intros S. constructor.
  - rewrite outline_names. apply S.
  - intros w f g Hw Ef Hg. destruct (outline_back w Hw) as (v & Hin & (E1 & E2 & E3)). destruct (Hf v Hin) as (f0 & f2 & F1 & F2 & Eg). rewrite E1, F2 in Ef. injection Ef as <-. rewrite Eg in Hg.
    destruct (st_parents _ _ S v f0 g Hin F1 Hg) as (p & Hp & <-). destruct (outline_forth p Hp) as (q & Hq & (Eq & _)). exists q. auto.
  - intros w Hw Ht. destruct (outline_back w Hw) as (v & Hin & R). pose proof R as (_ & E2 & _). destruct (st_utilities _ _ S v Hin) as [H|H]; [congruence| |].
    + left. apply (outline_collects v w); auto.
    + right. apply (outline_rewards v w); auto.
  - intros w1 w2 H1 H2 C1 C2. destruct (outline_back w1 H1) as (v1 & I1 & R1), (outline_back w2 H2) as (v2 & I2 & R2).
    apply (outline_collects v1 w1 I1 R1) in C1. apply (outline_collects v2 w2 I2 R2) in C2. pose proof (st_single _ _ S v1 v2 I1 I2 C1 C2). subst v2.
    assert (Hnd : NoDup (map nv_name vars2)) by (rewrite outline_names; apply S). destruct R1 as (R1 & _), R2 as (R2 & _).
    pose proof (var_named_in' _ w1 Hnd H1) as V1. pose proof (var_named_in' _ w2 Hnd H2) as V2. rewrite R1 in V1. rewrite R2 in V2. congruence.
  - intros w f Hw C Ef. destruct (outline_back w Hw) as (v & Hin & R). pose proof R as (E1 & E2 & E3). apply (outline_collects v w Hin R) in C. destruct (Hf v Hin) as (f0 & f2 & F1 & F2 & Eg).
    rewrite E1, F2 in Ef. injection Ef as <-. rewrite Eg, E3. apply (st_weights _ _ S v f0); auto.
Qed.

Lemma outline_total i j : valid_structure vars factors -> total_index vars factors i -> total_index vars2 factors2 j -> i = j.
Proof.
  intros S. pose proof (st_names _ _ S) as Hnd. intros [(-> & Hno)|(Hi & v & Ei & Ci)] [(-> & Hno')|(Hj & w & Ej & Cj)]; auto.
  - exfalso. destruct (outline_back w (nth_error_In _ _ Ej)) as (v & Hin & R). apply (Hno v Hin). apply (outline_collects v w); auto.
  - exfalso. destruct (outline_forth v (nth_error_In _ _ Ei)) as (w & Hin & R). apply (Hno' w Hin). apply (outline_collects v w); auto. eapply nth_error_In; eauto.
  - destruct (outline_back w (nth_error_In _ _ Ej)) as (v' & Hin & R). apply (outline_collects v' w Hin R) in Cj. pose proof (st_single _ _ S v v' (nth_error_In _ _ Ei) Hin Ci Cj). subst v'.
    assert (E : Z.to_nat i = Z.to_nat j); [|lia]. apply (f_equal (option_map nv_name)) in Ei, Ej. rewrite <- nth_error_map in Ei, Ej. rewrite outline_names in Ej. destruct R as (R & _). simpl in Ei, Ej. rewrite R in Ej.
    rewrite NoDup_nth_error in Hnd. apply Hnd; [apply nth_error_Some; congruence|congruence].
Qed.
End Outline.

Lemma skipn_more {X} i j (l : list X) : skipn i (skipn j l) = skipn (j + i) l.
Proof. revert l. induction j; intros l; simpl; auto. destruct l; auto. destruct i; auto. Qed.

(** Tables in rows *)
Section Round.
Context {A : Type} {N : NumOps A}.

Definition chunks (c r : nat) (l : list A) : list (list A) := map (fun i => firstn c (skipn (i * c) l)) (seq 0 r).
Lemma chunks_concat c r : forall l, List.length l = (r * c)%nat -> List.concat (chunks c r l) = l.
Proof.
  unfold chunks. induction r as [|r IH]; intros l Hl; [destruct l; auto; discriminate|]. cbn [seq map List.concat Nat.mul] in *. transitivity (firstn c l ++ skipn c l)%list; [|apply firstn_skipn]. cbn [skipn]. f_equal.
  rewrite <- seq_shift, map_map. transitivity (List.concat (map (fun i => firstn c (skipn (i * c) (skipn c l))) (seq 0 r))); [|apply IH; rewrite skipn_length; lia]. f_equal. apply map_ext. intros i. f_equal. rewrite skipn_more. auto.
Qed.
Lemma chunks_empty c r l : chunks c r l = [] <-> r = 0%nat.
Proof. unfold chunks. destruct r; simpl; split; auto; discriminate. Qed.

Definition yvar_of (v : nvar) (f : nfactor A) (r : nat) : yvar A :=
  mkYVar (nv_name v) (nf_given f) (node_type_name (nv_type v)) (nv_outcomes v) (nv_pos v) "" "" (chunks (List.length (nv_outcomes v)) r (slice_of (nf_table f))).
Lemma yaml_var_ok n v f r : own_factor n v f -> nv_outcomes v <> [] -> List.length (slice_of (nf_table f)) = (r * List.length (nv_outcomes v))%nat ->
  yaml_var n v = Ok (yvar_of v f r).
Proof.
  intros (k & Hk & Hf) Hne Hl. unfold yaml_var. rewrite Hk, Hf. cbn [gbind]. set (c := List.length (nv_outcomes v)) in *.
  assert (Hc : (0 < c)%nat) by (unfold c; destruct (nv_outcomes v); [tauto|simpl; lia]). unfold zlen. fold c. replace (Z.of_nat c =? 0) with false by lia.
  replace (Z.quot (Z.of_nat (List.length (slice_of (nf_table f)))) (Z.of_nat c)) with (Z.of_nat r). 2:{ rewrite Hl, Nat2Z.inj_mul, Z.quot_mul by lia. auto. }
  rewrite (mapM_ok _ (fun i => firstn c (skipn (Z.to_nat (i * Z.of_nat c)) (slice_of (nf_table f))))).
  - cbn [gbind]. unfold yvar_of, chunks. fold c. do 2 f_equal. rewrite zrange_nat, map_map. apply map_ext. intros i. f_equal. f_equal. lia.
  - intros i Hi. rewrite zrange_nat in Hi. apply in_map_iff in Hi. destruct Hi as (j & <- & Hj). apply in_seq in Hj. unfold sslice, zlen. rewrite Hl.
    destruct (_ || _) eqn:E; [exfalso; nia|]. f_equal. f_equal. nia.
Qed.
Definition back (v : nvar) (f : nfactor A) : nvar * nfactor A :=
  (mkNVar (nv_name v) (nv_type v) (nv_outcomes v) (nv_pos v) "" None,
   mkNFactor (nv_name v) (nf_given f) (match slice_of (nf_table f) with [] => None | l => Some l end) [] 0).
Lemma yvar_input v f r : nv_outcomes v <> [] -> List.length (slice_of (nf_table f)) = (r * List.length (nv_outcomes v))%nat -> node_input (yvar_of v f r) (back v f).
Proof.
  intros Hne Hl. exists (nv_type v), (match slice_of (nf_table f) with [] => None | l => Some l end). split; [cbn [y_type yvar_of]; destruct (nv_type v); simpl; auto|]. split; auto.
  set (c := List.length (nv_outcomes v)) in *. assert (Hc : (0 < c)%nat) by (unfold c; destruct (nv_outcomes v); [tauto|simpl; lia]).
  destruct (slice_of (nf_table f)) as [|x l] eqn:E.
  - left. cbn [y_logic y_table yvar_of]. split; auto. rewrite E. split; auto. apply chunks_empty. simpl in Hl. nia.
  - right. left. cbn [y_logic y_table yvar_of]. rewrite E. fold c. split; auto. split.
    + intros F. apply chunks_empty in F. simpl in Hl. nia.
    + rewrite chunks_concat by auto. auto.
Qed.
End Round.

Lemma Forall2_nth_l {X Y} (R : X -> Y -> Prop) l l' : Forall2 R l l' -> forall i x, nth_error l i = Some x -> exists y, nth_error l' i = Some y /\ R x y.
Proof. induction 1; intros [|i] z E; simpl in *; try discriminate E; eauto. injection E as <-. eauto. Qed.
Section Trip.
Context {A : Type} {N : NumOps A}.
Variables (name info : string) (vars : list nvar) (factors : list (nfactor A)) (n : network A).
Hypothesis Hnil : forall v, In v vars -> nv_factor v = None.
Hypothesis Hnew : net_new name info vars factors = Ok n.
Hypothesis Hrows : full_rows vars factors.

Lemma built_factor v : In v (n_vars n) -> exists w f r, In w vars /\ same_variable w v /\ factor_for factors (nv_name w) = Some f /\ own_factor n v (linked_factor vars f) /\ nv_outcomes v <> [] /\ List.length (slice_of (nf_table f)) = (r * List.length (nv_outcomes v))%nat.
Proof.
  intros Hv. destruct (new_api name info vars factors Hnil) as ([_ Hst] & _ & Hn). specialize (Hst (ex_intro _ n Hnew)). destruct (Hn n Hnew) as (_ & _ & _ & _ & Hvs & _ & Hl & _).
  destruct (Forall2_in_r _ _ _ _ Hvs Hv) as (w & Hw & Hs). destruct (Hrows w Hw) as (Hne & f & Ef & r & Er). exists w, f, r. split; auto. split; auto. split; auto. destruct Hs as (E1 & E2 & E3 & _). rewrite E3. split; auto.
  destruct (Hl w f Hw Ef) as (v' & k & Hv' & Hk & _ & Hkf). assert (v' = v). { rewrite <- E1, (var_named_in' _ v) in Hv'; [congruence| |auto]. rewrite (Forall2_names _ _ Hvs). apply Hst. } subst v'. exists k. auto.
Qed.

(** This also holds for networks with other entries in the tables. *)
Theorem round_trip_built reg m : like_new reg -> only_tables_differ n m -> exists doc n', to_yaml m = Ok doc /\ fst (from_yaml reg doc) = Ok n' /\ n_name n' = n_name m /\ n_tui n' = n_tui m /\ List.length (n_factors n') = List.length (n_vars n') /\ Forall2 (fun v v' => same_but_color v v' /\ exists f f', factor_of m v = Some f /\ factor_of n' v' = Some f' /\ equal_factors f f') (n_vars m) (n_vars n') /\ n_info n' = "" /\ (forall v', In v' (n_vars n') -> nv_color v' = "") /\
  exists vars2 factors2, (forall v, In v vars2 -> nv_factor v = None) /\ net_new (n_name n) "" vars2 factors2 = Ok n' /\ map nf_for factors2 = map nv_name vars2 /\ (forall f, In f factors2 -> nf_table f <> Some []).
Proof.
  intros Hreg (Mn & _ & Mv & _ & _ & _ & Mt & Mf). unfold to_yaml. rewrite Mn, Mv, Mt. destruct (new_api name info vars factors Hnil) as ([_ Hst] & _ & Hn). specialize (Hst (ex_intro _ n Hnew)). destruct (Hn n Hnew) as (En & _ & _ & _ & Hvs & _ & _ & Htot).
  set (own := fun v => match nv_factor v with Some k => match nth_error (n_factors m) k with Some f => f | None => mkNFactor "" [] None [] 0 end | None => mkNFactor "" [] None [] 0 end).
  assert (Hown : forall v, In v (n_vars n) -> own_factor m v (own v) /\ nv_outcomes v <> [] /\ exists w f r, In w vars /\ same_variable w v /\ factor_for factors (nv_name w) = Some f /\ same_tables_shape (linked_factor vars f) (own v) /\ List.length (slice_of (nf_table (own v))) = (r * List.length (nv_outcomes v))%nat).
  { intros v Hv. destruct (built_factor v Hv) as (w & f & r & H1 & H2 & H3 & (k & K1 & K2) & H5 & H6). destruct (Forall2_nth_l _ _ _ Mf _ _ K2) as (g & K3 & Hs). assert (Eo : own v = g) by (unfold own; rewrite K1, K3; auto). rewrite Eo.
    split; [exists k; auto|]. split; auto. exists w, f, r. split; auto. split; auto. split; auto. split; auto. destruct Hs as (_ & _ & _ & _ & Hs). cbn [linked_factor nf_table] in Hs. destruct (nf_table g), (nf_table f); cbn in *; try discriminate Hs; congruence. }
  set (rws := fun v => Z.to_nat (Z.quot (zlen (slice_of (nf_table (own v)))) (zlen (nv_outcomes v)))).
  assert (Hr : forall v, In v (n_vars n) -> List.length (slice_of (nf_table (own v))) = (rws v * List.length (nv_outcomes v))%nat).
  { intros v Hv. destruct (Hown v Hv) as (_ & Hne & w & f & r & _ & _ & _ & _ & E). unfold rws, zlen. rewrite E. rewrite Nat2Z.inj_mul, Z.quot_mul; [rewrite Nat2Z.id; auto|]. destruct (nv_outcomes v); [tauto|simpl; lia]. }
  exists (mkYDoc (n_name n) "" (map (fun v => yvar_of v (own v) (rws v)) (n_vars n))).
  assert (Hdoc : (let! vars := mapM (yaml_var m) (n_vars n) in Ok (mkYDoc (n_name n) "" vars)) = Ok (mkYDoc (n_name n) "" (map (fun v => yvar_of v (own v) (rws v)) (n_vars n)))).
  { rewrite (mapM_ok _ (fun v => yvar_of v (own v) (rws v))); auto. intros v Hv. destruct (Hown v Hv) as (H1 & H2 & _). apply yaml_var_ok; auto. }
  set (vars2 := map (fun v => fst (back v (own v))) (n_vars n)). set (factors2 := map (fun v => snd (back v (own v))) (n_vars n)).
  assert (Hfrom : fst (from_yaml reg (mkYDoc (n_name n) "" (map (fun v => yvar_of v (own v) (rws v)) (n_vars n)))) = net_new (n_name n) "" vars2 factors2).
  { unfold from_yaml. cbn [yd_vars yd_name yd_info]. assert (Hi : Forall2 node_input (map (fun v => yvar_of v (own v) (rws v)) (n_vars n)) (map (fun v => back v (own v)) (n_vars n))).
    { assert (G : forall l, incl l (n_vars n) -> Forall2 node_input (map (fun v => yvar_of v (own v) (rws v)) l) (map (fun v => back v (own v)) l)).
      { induction l as [|v l IH]; intros Hl; simpl; constructor. - destruct (Hown v (Hl v (or_introl eq_refl))) as (_ & Hne & _). apply yvar_input; auto. apply Hr. apply Hl. simpl; auto. - apply IH. intros x Hx. apply Hl. simpl; auto. }
      apply G, incl_refl. }
    pose proof (yaml_nodes_ok _ _ Hi reg Hreg) as E. destruct (yaml_nodes reg _) as [xs reg']. cbn [fst] in *. subst xs. cbn [gbind]. rewrite !map_map. auto. }
  assert (Hnd : NoDup (map nv_name (n_vars n))) by (rewrite (Forall2_names _ _ Hvs); apply Hst).
  assert (Hout : Forall2 same_outline vars vars2).
  { unfold vars2. clear - Hvs. induction Hvs as [|a b l l' (H1 & H2 & H3 & _) _ IH]; simpl; constructor; auto. split; auto. }
  assert (Hff : forall v, In v (n_vars n) -> factor_for factors2 (nv_name v) = Some (snd (back v (own v)))).
  { intros v Hv. unfold factors2, factor_for. clear - Hv Hnd. induction (n_vars n) as [|w l IH]; [destruct Hv|]. simpl. inversion Hnd; subst. destruct Hv as [->|Hv].
    - rewrite String.eqb_refl. auto.
    - destruct (String.eqb_spec (nv_name w) (nv_name v)) as [E|E]; auto. exfalso. apply H1. rewrite E. apply in_map. auto. }
  assert (Hpair : forall v, In v vars -> exists f f2, factor_for factors (nv_name v) = Some f /\ factor_for factors2 (nv_name v) = Some f2 /\ nf_given f2 = nf_given f).
  { intros w Hw. assert (Hx : exists v, In v (n_vars n) /\ nv_name v = nv_name w). { clear - Hvs Hw. induction Hvs as [|a b l l' (H1 & _) _ IH]; [destruct Hw|]. destruct Hw as [<-|Hw]; [exists b; simpl; auto|]. destruct (IH Hw) as (v & ? & ?). exists v. simpl; auto. }
    destruct Hx as (v & Hv & En'). destruct (Hown v Hv) as (_ & _ & w' & f & r & _ & (Es & _) & Ef & Eo & _). exists f, (snd (back v (own v))). rewrite <- En'. split; [congruence|]. split; auto. destruct Eo as (_ & Eo & _). exact Eo. }
  pose proof (outline_valid vars vars2 factors factors2 Hout Hpair Hst) as Hst2.
  assert (Hnil2 : forall v, In v vars2 -> nv_factor v = None). { intros v Hv. unfold vars2 in Hv. apply in_map_iff in Hv. destruct Hv as (w & <- & _). auto. }
  destruct (new_api (n_name n) "" vars2 factors2 Hnil2) as ([Hok _] & _ & Hn2). destruct (Hok Hst2) as (n' & En'). exists n'. split; [exact Hdoc|]. split; [rewrite Hfrom; exact En'|].
  destruct (Hn2 n' En') as (N1 & N2 & _ & _ & Hvs2 & Hfs2 & Hl2 & Htot2). split; auto. split; [symmetry; apply (outline_total vars vars2 factors factors2); auto|].
  assert (HL : List.length (n_factors n') = List.length factors2). { clear - Hfs2. induction Hfs2; simpl; auto. }
  assert (HLv : List.length (n_vars n') = List.length vars2). { clear - Hvs2. induction Hvs2; simpl; auto. }
  split; [rewrite HL, HLv; unfold factors2, vars2; rewrite !map_length; auto|].
  assert (Hnd2 : NoDup (map nv_name (n_vars n'))). { rewrite (Forall2_names _ _ Hvs2). apply Hst2. }
  split; [|split; [auto|split]].
  - assert (Hin : forall v v', In v (n_vars n) -> In v' (n_vars n') -> same_variable (fst (back v (own v))) v' -> same_but_color v v' /\ exists f f', factor_of m v = Some f /\ factor_of n' v' = Some f' /\ equal_factors f f').
    { intros v v' Hv Hv' (S1 & S2 & S3 & S4 & S5). simpl in *. split; [repeat split; auto|]. destruct (Hown v Hv) as ((k & K1 & K2) & _ & w & f & r & Hw & (W1 & W2 & W3 & _) & Ef & Eo & _).
      destruct (Hl2 (fst (back v (own v))) (snd (back v (own v)))) as (v2 & k2 & V1 & V2 & V3 & V4).
      { unfold vars2. apply (in_map (fun v => fst (back v (own v)))). auto. } { simpl. apply Hff. auto. }
      assert (v2 = v'). { simpl in V1. rewrite <- S1, (var_named_in' _ v') in V1 by auto. congruence. } subst v2.
      exists (own v), (linked_factor vars2 (snd (back v (own v)))). unfold factor_of. rewrite K1, K2, V2, V4. split; auto. split; auto.
      assert (Hno : forall x, num_outcomes vars2 x = num_outcomes vars x). { intros x. unfold num_outcomes. pose proof (outline_named vars vars2 Hout x) as Ho. destruct (var_named vars2 x), (var_named vars x); try tauto. destruct Ho as (_ & _ & ->). auto. }
      assert (Efor : nf_for f = nv_name v). { unfold factor_for in Ef. apply find_some in Ef. destruct Ef as [_ Ef]. apply String.eqb_eq in Ef. congruence. }
      destruct Eo as (E1 & E2 & E3 & E4 & _). unfold equal_factors. cbn [linked_factor back snd nf_for nf_given nf_table nf_outcomes nf_columns] in *. split; [congruence|]. split; auto. split; [destruct (slice_of (nf_table (own v))); auto|].
      split; [rewrite E3, E2; apply map_ext; intros x; rewrite Hno; auto|]. rewrite E4, Hno, Efor. auto. }
    clear - Hvs2 Hin. unfold vars2 in Hvs2. revert Hvs2 Hin. generalize (n_vars n') as l'. induction (n_vars n) as [|v l IH]; intros l' H Hin; simpl in H; inversion H; subst; constructor.
    + apply Hin; simpl; auto.
    + apply IH; auto. intros; apply Hin; simpl; auto.
  - intros v' Hv'. destruct (Forall2_in_r _ _ _ _ Hvs2 Hv') as (w & Hw & (_ & _ & _ & _ & ->)). unfold vars2 in Hw. apply in_map_iff in Hw. destruct Hw as (x & <- & _). auto.
  - exists vars2, factors2. split; auto. split; auto. split; [unfold vars2, factors2; rewrite !map_map; auto|]. intros f Hf. unfold factors2 in Hf. apply in_map_iff in Hf. destruct Hf as (x & <- & _). cbn [back snd nf_table]. destruct (slice_of _); discriminate.
Qed.
Theorem round_trip_tables reg m : like_new reg -> only_tables_differ n m -> exists doc n', to_yaml m = Ok doc /\ fst (from_yaml reg doc) = Ok n' /\ n_name n' = n_name m /\ n_tui n' = n_tui m /\ List.length (n_factors n') = List.length (n_vars n') /\ Forall2 (fun v v' => same_but_color v v' /\ exists f f', factor_of m v = Some f /\ factor_of n' v' = Some f' /\ equal_factors f f') (n_vars m) (n_vars n') /\ n_info n' = "" /\ (forall v', In v' (n_vars n') -> nv_color v' = "").
Proof. intros H1 H2. destruct (round_trip_built reg m H1 H2) as (doc & n' & E1 & E2 & E3 & E4 & E5 & E6 & E7 & E8 & _). exists doc, n'. auto 10. Qed.
Theorem round_trip reg : like_new reg -> exists doc n', to_yaml n = Ok doc /\ fst (from_yaml reg doc) = Ok n' /\ n_name n' = n_name n /\ n_tui n' = n_tui n /\ List.length (n_factors n') = List.length (n_vars n') /\ Forall2 (fun v v' => same_but_color v v' /\ exists f f', factor_of n v = Some f /\ factor_of n' v' = Some f' /\ equal_factors f f') (n_vars n) (n_vars n') /\ n_info n' = "" /\ (forall v', In v' (n_vars n') -> nv_color v' = "").
Proof.
  intros Hreg. apply round_trip_tables; auto. repeat split. clear. induction (n_factors n); constructor; auto. repeat split.
Qed.
End Trip.
