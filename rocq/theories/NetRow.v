(** Rows of tables; variables with very many outcomes. *)
From Coq Require Import ZArith List Bool String Lia.
From Verif Require Import Num GoBase VarModel GoFacts VEModel SpecFactor NetModel SpecNet.
Import ListNotations.
Open Scope string_scope.
Open Scope list_scope.
Open Scope Z_scope.

Section Row.
Context {A : Type} {N : NumOps A}.

Definition row_step '((o, i) : Z * Z) (st : option (Z * Z)) : option (Z * Z) :=
  match st with
  | None => None
  | Some (idx, stride) => if i <? 0 then None else Some (idx + i * stride, stride * o)
  end.
Definition zprod (l : list (Z * Z)) : Z := fold_right (fun p s => s * fst p) 1 l.

Lemma row_fold l : (forall o i, In (o, i) l -> 0 <= i) -> exists idx, fold_right row_step (Some (0, 1)) l = Some (idx, zprod l) /\
  forall r, fold_left (fun r '((o, i) : Z * Z) => r * o + i) l r = r * zprod l + idx.
Proof.
  induction l as [|[o i] l IH]; intros H.
  - exists 0. split; auto. intros r. simpl. lia.
  - destruct IH as (idx & E & Hr). { intros; eapply H; right; eauto. }
    exists (idx + i * zprod l). specialize (H o i (or_introl eq_refl)).
    cbn [fold_right]. rewrite E. cbn [row_step zprod fst]. replace (i <? 0) with false by lia. split; auto.
    intros r. cbn [fold_left]. rewrite Hr. unfold zprod. simpl. fold (zprod l). ring.
Qed.

Lemma row_fold_none l : (exists o i, In (o, i) l /\ i < 0) -> fold_right row_step (Some (0, 1)) l = None.
Proof.
  induction l as [|[o i] l IH]; intros (o' & i' & Hin & Hi); [destruct Hin|].
  cbn [fold_right]. destruct Hin as [E|Hin].
  - injection E as -> ->. destruct (fold_right row_step (Some (0, 1)) l) as [[idx st]|]; cbn [row_step]; auto. replace (i' <? 0) with true by lia. auto.
  - rewrite IH by eauto. auto.
Qed.

Lemma row_index_spec (f : nfactor A) indices : zlen indices = zlen (nf_outcomes f) ->
  nf_row_index f indices = if existsb (fun i => i <? 0) indices then Ok (0, false) else Ok (row_number (nf_outcomes f) indices, true).
Proof.
  intros Hl. unfold nf_row_index. replace (zlen indices =? zlen (nf_outcomes f)) with true by lia. cbn [negb].
  assert (E0 : forall r, match indices with [] => Ok (0, true) | _ => r end = match indices with [] => @Ok (Z * bool) (0, true) | _ => r end) by auto.
  destruct indices as [|i0 rest] eqn:Ei.
  - unfold row_number. destruct (nf_outcomes f); [|unfold zlen in Hl; simpl in Hl; lia]. auto.
  - rewrite <- Ei in *. clear Ei E0 i0 rest.
    change (fold_right _ (Some (0, 1)) (combine (nf_outcomes f) indices)) with (fold_right row_step (Some (0, 1)) (combine (nf_outcomes f) indices)).
    destruct (existsb (fun i => i <? 0) indices) eqn:Ex.
    + rewrite row_fold_none; auto. apply existsb_exists in Ex. destruct Ex as (i & Hin & Hi).
      apply In_nth_error in Hin. destruct Hin as (k & Hk).
      assert (Hlt : (k < List.length (nf_outcomes f))%nat). { unfold zlen in Hl. pose proof (proj1 (nth_error_Some indices k)). rewrite Hk in H. assert (k < List.length indices)%nat by (apply H; discriminate). lia. }
      apply nth_error_Some in Hlt. destruct (nth_error (nf_outcomes f) k) as [o|] eqn:Eo; [|congruence].
      exists o, i. split; [|lia]. clear - Hk Eo. revert Hk Eo. generalize (nf_outcomes f). revert indices.
      induction k; intros [|x l] [|y l'] H1 H2; simpl in *; try discriminate.
      * injection H1 as ->. injection H2 as ->. auto.
      * right. eauto.
    + destruct (row_fold (combine (nf_outcomes f) indices)) as (idx & E & Hr).
      { intros o i Hin. apply in_combine_r in Hin. destruct (i <? 0) eqn:Ei; [|lia]. exfalso. apply not_true_iff_false in Ex. apply Ex. apply existsb_exists. eauto. }
      rewrite E. do 2 f_equal. unfold row_number. rewrite Hr. lia.
Qed.

(** What Row returns: the entries from position r, where r is the number of the row. *)
Theorem row_spec (f : nfactor A) indices table : zlen indices = zlen (nf_outcomes f) -> nf_table f = Some table ->
  existsb (fun i => i <? 0) indices = false -> 0 <= nf_columns f -> 0 <= row_number (nf_outcomes f) indices ->
  row_number (nf_outcomes f) indices + nf_columns f <= zlen table ->
  nf_row f indices = Ok (firstn (Z.to_nat (nf_columns f)) (skipn (Z.to_nat (row_number (nf_outcomes f) indices)) table), true).
Proof.
  intros Hl Ht Hx Hc Hr Hlen. unfold nf_row. rewrite row_index_spec, Hx, Ht by auto. cbn [gbind negb slice_of].
  set (r := row_number _ _) in *. unfold sslice.
  replace ((r <? 0) || (r + nf_columns f <? r) || (zlen table <? r + nf_columns f)) with false by lia.
  cbn [gbind]. do 4 f_equal. lia.
Qed.

Lemma row_number_bounds outs idx : Forall2 (fun o i => 0 <= i < o) outs idx ->
  0 <= row_number outs idx < fold_right Z.mul 1 outs /\ existsb (fun i => i <? 0) idx = false.
Proof.
  unfold row_number. intros H.
  assert (G : forall outs idx, Forall2 (fun o i => 0 <= i < o) outs idx -> forall r, 0 <= r ->
    r * fold_right Z.mul 1 outs <= fold_left (fun r '((o, i) : Z * Z) => r * o + i) (combine outs idx) r < (r + 1) * fold_right Z.mul 1 outs /\ 0 < fold_right Z.mul 1 outs).
  { clear. induction 1 as [|o i outs idx H H2 IH]; intros r Hr; [simpl; lia|].
    cbn [combine fold_left fold_right]. destruct (IH (r * o + i)) as [IH1 IHp]; [nia|]. split; [|nia]. split.
    - apply Z.le_trans with ((r * o + i) * fold_right Z.mul 1 outs); nia.
    - eapply Z.lt_le_trans; [apply IH1|]. nia. }
  destruct (G outs idx H 0) as [G1 _]; [lia|]. split; [lia|].
  clear G G1. induction H; simpl; auto. rewrite IHForall2, orb_false_r. lia.
Qed.

Theorem row_partial (f : nfactor A) indices table : Forall2 (fun o i => 0 <= i < o) (nf_outcomes f) indices -> nf_table f = Some table ->
  1 <= nf_columns f -> zlen table = fold_right Z.mul 1 (nf_outcomes f) * nf_columns f ->
  row_number (nf_outcomes f) indices = 0 \/ nf_columns f = 1 ->
  nf_row f indices = Ok (table_row table (nf_columns f) (row_number (nf_outcomes f) indices), true).
Proof.
  intros H Ht Hc Hlen Hcase. destruct (row_number_bounds _ _ H) as [Hb Hx].
  assert (Hl : zlen indices = zlen (nf_outcomes f)). { unfold zlen. clear - H. induction H; simpl; lia. }
  rewrite (row_spec f indices table); auto; try lia; [|nia].
  unfold table_row. destruct Hcase as [E|E]; rewrite E; auto. rewrite Z.mul_1_r. auto.
Qed.

Theorem row_missing (f : nfactor A) indices : zlen indices = zlen (nf_outcomes f) -> (exists i, In i indices /\ i < 0) ->
  nf_row f indices = Ok ([], false).
Proof.
  intros Hl (i & Hi & Hneg). unfold nf_row. rewrite row_index_spec by auto.
  replace (existsb (fun i => i <? 0) indices) with true; auto. symmetry. apply existsb_exists. exists i. split; auto. lia.
Qed.

(** ** One variable with too many outcomes *)
Definition single (v : nvar) (t : list A) : network A :=
  mkNet "" "" [v] [mkNFactor (nv_name v) [] (Some t) [] (zlen (nv_outcomes v))] [] None [] (-1).

Theorem too_many_outcomes sc v t : nv_type v = Chance -> nv_name v <> "" -> 65536 <= zlen (nv_outcomes v) -> zlen t = zlen (nv_outcomes v) ->
  forall ev query ig, exists p, snd (net_solve_query sc (single v t) ev query ig) = Panic p.
Proof.
  destruct v as [nm ty outs ps col fac]. cbn [nv_type nv_name nv_outcomes]. intros -> Hn Hm Ht ev query ig.
  unfold net_solve_query, net_solve, assign_ve.
  assert (E : exists p, to_ve sc 0 (single (mkNVar nm Chance outs ps col fac) t) (if ig then ev else []) = Panic p).
  { unfold to_ve, add_net_variables, single. cbn [n_vars n_policies n_factors nv_name nv_outcomes].
    change (zrange 0 (zlen [mkNVar nm Chance outs ps col fac])) with [0].
    cbn [combine foldM add_net_variable n_tui nv_type nv_name nodeType_eqb andb]. change (0 =? -1) with false. cbv iota.
    cbn [nv_type nodeType_eqb andb nv_outcomes add_variable vs_ids new_variables existsb gbind vs_vars vs_counter app mset].
    set (k := u16 (zlen outs)). unfold foldM. cbn [add_net_factor nf_for]. rewrite (proj2 (String.eqb_neq nm "") Hn). cbn [mget]. rewrite String.eqb_refl.
    cbn [nf_given mapM gbind en_ve v_type nodeType_eqb en_var nv_type app nf_table create_factor vars_rows fold_left].
    unfold create_factor, vars_rows, v_out. cbn [fold_left v_outcomes].
    replace (zlen t =? 1 * Z.of_nat k) with false. { cbn [negb gbind]. eauto. }
    symmetry. apply Z.eqb_neq. unfold k, u16. pose proof (Z.mod_pos_bound (zlen outs) 65536). lia. }
  destruct E as (p & E). rewrite E. exists p. reflexivity.
Qed.
End Row.
