(** Tables of the wrong length. *)
From Coq Require Import ZArith List Bool String Lia Permutation QArith Qcanon.
From Verif Require Import Num GoBase VarModel GoFacts Tuples SpecFactor FactorFacts FactorAt XnumFacts ExactFactor FactorThms
  VEModel SpecVE VEWorlds VEFacts NetModel SpecNet NetVars NetFactors NetVE NetPolicyLoop.
Import ListNotations.
Open Scope string_scope.
Open Scope list_scope.
Open Scope Z_scope.

(** The network with the table of one factor replaced. *)
Definition with_table (n : network xnum) (pre : list (nfactor xnum)) (f : nfactor xnum) (t : list xnum) (post : list (nfactor xnum)) : network xnum :=
  mkNet (n_name n) (n_info n) (n_vars n) (pre ++ mkNFactor (nf_for f) (nf_given f) (Some t) (nf_outcomes f) (nf_columns f) :: post)
    (n_policies n) (n_ve n) (n_names n) (n_tui n).

Lemma rows_size n f : wf_network n -> is_total n (nf_for f) = false -> wf_table n f ->
  vars_rows (map (vv n) (nf_given f) ++ [vv n (nf_for f)]) = Z.of_nat (table_size (n_vars n) (nf_given f ++ [nf_for f])).
Proof.
  intros Hwf Ht Hw. pose proof (table_names n f Ht Hw) as Hn. replace (map (vv n) (nf_given f) ++ [vv n (nf_for f)]) with (map (vv n) (nf_given f ++ [nf_for f])) by (rewrite map_app; auto).
  unfold vars_rows. assert (G : forall L, (forall x, In x L -> known n x) -> forall acc,
     fold_left (fun rows v => rows * v_out v) (map (vv n) L) acc = acc * Z.of_nat (table_size (n_vars n) L)).
  { induction L as [|x L IH]; intros HL acc; cbn [map fold_left table_size fold_right]; [lia|]. rewrite IH by (intros; apply HL; simpl; auto).
    unfold v_out. destruct (vv_outcomes n Hwf x) as [-> _]; [apply HL; simpl; auto|]. unfold table_size. lia. }
  rewrite G; auto. lia.
Qed.

Lemma wrong_length_panics n pre f t post : wf_network n -> n_factors n = pre ++ f :: post -> is_total n (nf_for f) = false -> kind (n_vars n) (nf_for f) <> Some Decision ->
  List.length t <> table_size (n_vars n) (nf_given f ++ [nf_for f]) -> forall sc tick ev, exists p, to_ve sc tick (with_table n pre f t post) ev = Panic p.
Proof.
  intros Hwf Hfs Ht Hd Hl sc tick ev. unfold to_ve. set (b := with_table n pre f t post).
  rewrite (add_net_variables_ok b (wn_names n Hwf) (wn_count n Hwf)). cbn [gbind].
  change (net_vars b) with (net_vars n). change (entries b) with (entries n). change (total_name b) with (total_name n). change (n_factors b) with (pre ++ mkNFactor (nf_for f) (nf_given f) (Some t) (nf_outcomes f) (nf_columns f) :: post).
  assert (Hw : wf_table n f) by (apply (wn_tables n Hwf); auto; rewrite Hfs; apply in_app_iff; simpl; auto).
  destruct (add_net_factors_ok n Hwf pre (fun g Hg => wn_tables n Hwf g ltac:(rewrite Hfs; apply in_app_iff; auto)) 0 [] []) as (c & fs & E & _).
  unfold vs_at in E. rewrite foldM_app. match goal with |- context [foldM ?a ?b pre] => match type of E with ?l = _ => change (foldM a b pre) with l end end. rewrite E. cbn [gbind foldM].
  set (f' := mkNFactor (nf_for f) (nf_given f) (Some t) (nf_outcomes f) (nf_columns f)). unfold add_net_factor at 1. change (nf_for f') with (nf_for f). change (nf_given f') with (nf_given f).
  rewrite (total_name_eq n Hwf f) by auto. rewrite Ht. assert (Hkn : known n (nf_for f)) by (split; auto; apply Hw).
  destruct (lookup_known n Hwf _ Hkn) as (k & v & Hk & Hn & Hv & _ & El). unfold lookup in El. rewrite El. rewrite (mapM_given n Hwf f Ht Hw). cbn [gbind].
  assert (Ev : en_ve (ve_entry n (Z.of_nat k, v)) = vv n (nf_for f)) by (unfold vv, lookup; rewrite El; auto).
  rewrite Ev. destruct (kind_known n Hwf _ Hkn) as (ty & Hkt & Htype). rewrite Htype.
  assert (Hvt : nv_type (en_var (ve_entry n (Z.of_nat k, v))) = ty). { simpl. unfold kind in Hkt. rewrite Hv in Hkt. simpl in Hkt. congruence. }
  rewrite Hvt. assert (Etd : nodeType_eqb ty Decision = false). { destruct ty; auto. congruence. }
  rewrite Etd. cbn [andb]. rewrite Etd. unfold create_factor. cbn [nf_table f'].
  rewrite (rows_size n f Hwf Ht Hw). replace (zlen t =? Z.of_nat (table_size (n_vars n) (nf_given f ++ [nf_for f]))) with false; [cbn [negb gbind]; eauto|].
  symmetry. apply Z.eqb_neq. unfold zlen. lia.
Qed.

Theorem wrong_length_calls n pre f t post : wf_network n -> n_factors n = pre ++ f :: post -> is_total n (nf_for f) = false -> kind (n_vars n) (nf_for f) <> Some Decision ->
  List.length t <> table_size (n_vars n) (nf_given f ++ [nf_for f]) -> let bad := with_table n pre f t post in
  (forall sc ev query ig, exists p, snd (net_solve_query sc bad ev query ig) = Panic p) /\
  (forall sc ev query u ig, exists p, snd (net_solve_utility sc bad ev query u ig) = Panic p) /\
  (forall sc stepwise, exists p, snd (net_solve_policies sc bad stepwise) = Panic p).
Proof.
  intros Hwf Hfs Ht Hd Hl bad. split; [|split].
  - intros sc ev query ig. unfold net_solve_query, net_solve, assign_ve.
    destruct (wrong_length_panics n pre f t post Hwf Hfs Ht Hd Hl sc 0%nat (if ig then ev else [])) as (p & E). fold bad in E. rewrite E. exists p. auto.
  - intros sc ev query u ig. unfold net_solve_utility, net_solve, assign_ve.
    destruct (wrong_length_panics n pre f t post Hwf Hfs Ht Hd Hl sc 0%nat (if ig then ev else [])) as (p & E). fold bad in E. rewrite E. exists p. auto.
  - intros sc stepwise. unfold net_solve_policies.
    assert (Ek : exists k, count_decision_steps (with_policies bad []) stepwise = S k).
    { unfold count_decision_steps. destruct stepwise; [|exists O; reflexivity]. match goal with |- context [List.length ?l] => destruct (List.length l) as [|k] end; [exists O|exists k]; reflexivity. }
    destruct Ek as (k & ->). cbn [policy_steps]. unfold assign_ve.
    destruct (wrong_length_panics (with_policies n []) pre f t post (wf_no_policies n Hwf) Hfs Ht Hd Hl sc 0%nat []) as (p & E).
    change (with_table (with_policies n []) pre f t post) with (with_policies bad []) in E. rewrite E. exists p. auto.
Qed.
