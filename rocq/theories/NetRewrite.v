(** Networks that say the same in other words give the same answers. *)
From Coq Require Import ZArith List Bool String Lia Permutation QArith Qcanon.
From Verif Require Import Num GoBase VarModel GoFacts SpecFactor XnumFacts VEModel SpecVE VEWorlds NetModel SpecNet NetVars NetFactors NetVE NetSums NetQuery NetMass NetCor NetNew
  SpecNetPolicy NetPolicyStep NetPolicyThms SpecGraph StateSums NetGraph NetChange NetReorder SpecRewrite.
Import ListNotations.
Open Scope string_scope.
Open Scope list_scope.
Open Scope Z_scope.

(** ** Sums over outcomes in another order *)
Lemma position_nth l i o : NoDup l -> nth_error l i = Some o -> position o l = i.
Proof.
  revert i. induction l as [|a l IH]; intros i Hn E; [destruct i; discriminate|]. inversion Hn as [|? ? Ha Hl]; subst. destruct i as [|i]; simpl in *.
  - injection E as ->. rewrite String.eqb_refl. auto.
  - destruct (String.eqb_spec o a) as [->|N]; [exfalso; apply Ha; eapply nth_error_In; eauto|]. f_equal. auto.
Qed.
Lemma nth_position l o : In o l -> nth_error l (position o l) = Some o.
Proof.
  induction l as [|a l IH]; simpl; [tauto|]. intros H. destruct (String.eqb_spec o a) as [->|N]; auto. destruct H as [->|H]; [congruence|]. simpl. auto.
Qed.
Lemma map_position l : NoDup l -> map (fun o => position o l) l = seq 0 (List.length l).
Proof.
  intros Hn. apply nth_error_ext. intros i. rewrite nth_error_map. destruct (nth_error l i) as [o|] eqn:E.
  - simpl. rewrite (position_nth _ _ _ Hn E). assert (H : (i < List.length l)%nat) by (apply nth_error_Some; congruence).
    symmetry. rewrite (nth_error_nth' _ 0%nat) by (rewrite seq_length; auto). rewrite seq_nth; auto.
  - simpl. symmetry. apply nth_error_None. rewrite seq_length. apply nth_error_None. auto.
Qed.
Lemma qsum_match (h : string -> string) l l' (G G' : nat -> Qc) : Permutation (map h l) l' -> NoDup l -> NoDup l' ->
  (forall i i' o, nth_error l i = Some o -> nth_error l' i' = Some (h o) -> G i = G' i') ->
  qsum (map G (seq 0 (List.length l))) = qsum (map G' (seq 0 (List.length l'))).
Proof.
  intros Hp Hn Hn' H. rewrite <- (map_position l Hn), <- (map_position l' Hn'), !map_map.
  rewrite <- (qsum_perm _ _ (Permutation_map (fun o => G' (position o l')) Hp)), map_map. f_equal. apply map_ext_in. intros o Ho.
  apply (H _ _ o); [apply nth_position; auto|]. apply nth_position. apply (Permutation_in _ Hp). apply in_map. auto.
Qed.

(** ** The dictionary in the other direction *)
Definition swap (D : dictionary) : dictionary := mkDict (from_name D) (to_name D) (from_outcome D) (to_outcome D).

Lemma same_node_swap D v v' : same_node D v v' -> same_node (swap D) v' v.
Proof.
  intros [H1 H2 H3 H4 H5]. constructor; cbn [swap to_name from_name to_outcome from_outcome]; auto.
  - rewrite <- (Permutation_map (from_outcome D (nv_name v')) H4), map_map. erewrite map_ext_in; [rewrite map_id; reflexivity|]. auto.
  - intros o' Ho'. apply (Permutation_in _ (Permutation_sym H4)) in Ho'. apply in_map_iff in Ho'. destruct Ho' as (o & <- & Ho). rewrite H5; auto.
Qed.
Lemma Forall2_flip {X Y} (R : X -> Y -> Prop) l l' : Forall2 R l l' -> Forall2 (fun y x => R x y) l' l.
Proof. induction 1; constructor; auto. Qed.
Lemma perm_flip {X Y} (R : X -> Y -> Prop) (S : Y -> X -> Prop) (L : list X) (L' : list Y) :
  (forall x y, In x L -> In y L' -> R x y -> S y x) ->
  (exists l, Permutation l L' /\ Forall2 R L l) -> exists l, Permutation l L /\ Forall2 S L' l.
Proof.
  intros H (l & Hp & HF). destruct (Permutation_Forall2 (P := fun y x => In y L' /\ In x L /\ R x y) (l1 := l) (l1' := L') (l2 := L)) as (m & Hm & Hf); auto.
  - assert (K : forall a, Forall2 R a l -> incl a L -> incl l L' -> Forall2 (fun y x => In y L' /\ In x L /\ R x y) l a).
    { clear. intros a. revert l. induction a as [|x a IH]; intros l HF H1 H2; inversion HF as [|? y ? l' E HF']; subst; constructor.
      - repeat split; auto; [apply H2|apply H1]; left; auto.
      - apply IH; auto; intros z Hz; [apply H1|apply H2]; right; auto. }
    apply K; auto; [apply incl_refl|]. intros y. apply Permutation_in. auto.
  - exists m. split; [apply Permutation_sym; auto|]. clear - H Hf. induction Hf as [|y x a b (E1 & E2 & E3) _ IH]; constructor; auto.
Qed.

Section One.
Variable D : dictionary.
Variables n n' : network xnum.
Hypothesis Hwf : wf_network n.
Hypothesis Hwf' : wf_network n'.
Hypothesis Hrw : rewritten D n n'.
Notation vars := (n_vars n).
Notation vars' := (n_vars n').

Lemma rw_node v : In v vars -> exists v', In v' vars' /\ same_node D v v'.
Proof.
  intros Hv. destruct (rw_vars _ _ _ Hrw) as (l & Hp & HF). destruct (Forall2_in_l _ _ _ _ HF Hv) as (v' & Hv' & E). exists v'. split; auto. apply (Permutation_in _ Hp). auto.
Qed.
Lemma rw_node' v' : In v' vars' -> exists v, In v vars /\ same_node D v v'.
Proof.
  intros Hv. destruct (rw_vars _ _ _ Hrw) as (l & Hp & HF). apply (Permutation_in _ (Permutation_sym Hp)) in Hv. destruct (Forall2_in_r _ _ _ _ HF Hv) as (v & E & Ev). exists v. auto.
Qed.
Lemma rw_table f : In f (n_factors n) -> exists f', In f' (n_factors n') /\ same_table D n n' f f'.
Proof.
  intros Hf. destruct (rw_factors _ _ _ Hrw) as (l & Hp & HF). destruct (Forall2_in_l _ _ _ _ HF Hf) as (f' & Hf' & E). exists f'. split; auto. apply (Permutation_in _ Hp). auto.
Qed.
Lemma rw_table' f' : In f' (n_factors n') -> exists f, In f (n_factors n) /\ same_table D n n' f f'.
Proof.
  intros Hf. destruct (rw_factors _ _ _ Hrw) as (l & Hp & HF). apply (Permutation_in _ (Permutation_sym Hp)) in Hf. destruct (Forall2_in_r _ _ _ _ HF Hf) as (f & E & Ef). exists f. auto.
Qed.
Lemma named_of (m : network xnum) v : wf_network m -> In v (n_vars m) -> var_named (n_vars m) (nv_name v) = Some v.
Proof. intros H Hv. apply var_named_in; auto. Qed.
Lemma named_to v v' : In v vars -> In v' vars' -> same_node D v v' -> var_named vars' (to_name D (nv_name v)) = Some v'.
Proof. intros Hv Hv' E. rewrite <- (sn_to _ _ _ E). apply named_of; auto. Qed.
Lemma named_inv (m : network xnum) x v : var_named (n_vars m) x = Some v -> In v (n_vars m) /\ nv_name v = x.
Proof. intros E. apply find_some in E. destruct E as [H E]. apply String.eqb_eq in E. auto. Qed.
Lemma factor_named (m : network xnum) f : wf_network m -> In f (n_factors m) -> exists v, In v (n_vars m) /\ nv_name v = nf_for f.
Proof.
  intros H Hf. destruct (is_total m (nf_for f)) eqn:Et.
  - unfold is_total in Et. destruct (nth_error (n_vars m) (Z.to_nat (n_tui m))) as [v|] eqn:E; [|discriminate]. apply andb_true_iff in Et. destruct Et as [_ Et].
    apply String.eqb_eq in Et. exists v. split; auto. eapply nth_error_In; eauto.
  - destruct (wt_for _ _ (wn_tables _ H _ Hf Et)) as (v & Ev). apply named_inv in Ev. exists v. auto.
Qed.
Lemma back_name v : In v vars -> from_name D (to_name D (nv_name v)) = nv_name v.
Proof. intros Hv. destruct (rw_node v Hv) as (v' & _ & E). rewrite <- (sn_to _ _ _ E). symmetry. apply (sn_from _ _ _ E). Qed.
Lemma to_name_inj v w : In v vars -> In w vars -> to_name D (nv_name v) = to_name D (nv_name w) -> nv_name v = nv_name w.
Proof. intros Hv Hw E. rewrite <- (back_name v), <- (back_name w), E; auto. Qed.
Lemma kind_to v : In v vars -> kind vars' (to_name D (nv_name v)) = kind vars (nv_name v).
Proof.
  intros Hv. destruct (rw_node v Hv) as (v' & Hv' & E). unfold kind. rewrite (named_to v v') by auto. rewrite (named_of n v) by auto. simpl. f_equal. apply E.
Qed.
Lemma outcome_of s v : In v vars -> outcome_in vars s (nv_name v) = nth_error (nv_outcomes v) (s (nv_name v)).
Proof. intros Hv. unfold outcome_in. rewrite (named_of n v); auto. Qed.
Lemma outcome_to s v v' : In v vars -> In v' vars' -> same_node D v v' -> outcome_in vars' s (to_name D (nv_name v)) = nth_error (nv_outcomes v') (s (nv_name v')).
Proof. intros Hv Hv' E. unfold outcome_in. rewrite (named_to v v') by auto. rewrite (sn_to _ _ _ E). auto. Qed.
Lemma distinct v : In v vars -> NoDup (nv_outcomes v).
Proof. apply (wn_distinct _ Hwf). Qed.

(** ** Sums over corresponding states *)
Definition match_on (L : list nvar) (s s' : nstate) : Prop := forall v, In v L -> same_outcome D n n' s s' (nv_name v).
Lemma match_upd v v' s s' i i' o L : In v vars -> In v' vars' -> same_node D v v' -> incl L vars ->
  nth_error (nv_outcomes v) i = Some o -> nth_error (nv_outcomes v') i' = Some (to_outcome D (nv_name v) o) ->
  (forall w, In w L -> nv_name w <> nv_name v -> same_outcome D n n' s s' (nv_name w)) -> match_on L (nupd s (nv_name v) i) (nupd s' (nv_name v') i').
Proof.
  intros Hv Hv' E HL Ei Ei' H w Hw. pose proof (HL _ Hw) as Hw'. destruct (String.eqb_spec (nv_name w) (nv_name v)) as [Ew|Nw].
  - assert (Ewv : w = v) by (apply (same_var vars (wn_names _ Hwf)); auto). subst w.
    exists o. rewrite (outcome_of _ v Hv), (outcome_to _ v v' Hv Hv' E). unfold nupd. rewrite !String.eqb_refl. auto.
  - destruct (H w Hw Nw) as (ow & E1 & E2). exists ow. destruct (rw_node w Hw') as (w' & Hw1 & Ew). rewrite (outcome_of s w Hw') in E1. rewrite (outcome_to s' w w' Hw' Hw1 Ew) in E2.
    rewrite (outcome_of _ w Hw'), (outcome_to _ w w' Hw' Hw1 Ew).
    unfold nupd. destruct (String.eqb_spec (nv_name w) (nv_name v)); [congruence|]. destruct (String.eqb_spec (nv_name w') (nv_name v')) as [En|_]; auto.
    exfalso. apply Nw. apply to_name_inj; auto. rewrite <- (sn_to _ _ _ E), <- (sn_to _ _ _ Ew). auto.
Qed.
Lemma sum_match F F' L L' : Forall2 (same_node D) L L' -> incl L vars -> incl L' vars' -> NoDup (map nv_name L) ->
  forall done s s', incl done vars -> (forall v w, In v done -> In w L -> nv_name v <> nv_name w) -> match_on done s s' ->
  (forall t t', match_on (done ++ L) t t' -> F t = F' t') -> nsum F L s = nsum F' L' s'.
Proof.
  induction 1 as [|v v' L L' E HL IH]; intros Hi Hi' Hn done s s' Hd Hne Hm HF.
  - rewrite !nsum_nil. apply HF. rewrite app_nil_r. auto.
  - rewrite !nsum_cons. pose proof (Hi v (or_introl eq_refl)) as Hv. pose proof (Hi' v' (or_introl eq_refl)) as Hv'. inversion Hn as [|? ? Hx Hn']; subst.
    apply (qsum_match (to_outcome D (nv_name v))); [apply E|apply (wn_distinct _ Hwf); auto|apply (wn_distinct _ Hwf'); auto|].
    intros i i' o Ei Ei'. apply (IH (fun w Hw => Hi w (or_intror Hw)) (fun w Hw => Hi' w (or_intror Hw)) Hn' (done ++ [v])).
    + intros w Hw. apply in_app_iff in Hw. destruct Hw as [Hw|[<-|[]]]; auto.
    + intros w u Hw Hu. apply in_app_iff in Hw. destruct Hw as [Hw|[<-|[]]]; [apply Hne; auto; right; auto|]. intros En. apply Hx. rewrite En. apply in_map. auto.
    + apply (match_upd v v' s s' i i' o); auto.
      * intros w Hw. apply in_app_iff in Hw. destruct Hw as [Hw|[<-|[]]]; auto.
      * intros w Hw Nw. apply in_app_iff in Hw. destruct Hw as [Hw|[<-|[]]]; [apply Hm; auto|congruence].
    + intros t t' Ht. apply HF. rewrite <- app_assoc in Ht. auto.
Qed.
Lemma worldly_match L L' : Forall2 (same_node D) L L' -> Forall2 (same_node D) (worldly_of L) (worldly_of L').
Proof.
  induction 1 as [|v v' L L' E HL IH]; simpl; [constructor|]. unfold is_kind. rewrite (sn_type _ _ _ E). destruct (negb _); auto.
Qed.
Lemma world_sums F F' : nproper F' -> (forall t t', match_on (worldly_of vars) t t' -> F t = F' t') ->
  nsum F (worldly_of vars) nowhere = nsum F' (worldly_of vars') nowhere.
Proof.
  intros HF' H. destruct (rw_vars _ _ _ Hrw) as (l & Hp & HF2).
  rewrite <- (nsum_perm F' (worldly_of l) (worldly_of vars')); auto.
  - apply (sum_match F F' (worldly_of vars) (worldly_of l) (worldly_match _ _ HF2)) with (done := []).
    + intros v Hv. apply filter_In in Hv. apply Hv.
    + intros v Hv. apply filter_In in Hv. apply (Permutation_in _ Hp). apply Hv.
    + apply names_filter. apply (wn_names _ Hwf).
    + intros v [].
    + intros v w [].
    + intros v [].
    + exact H.
  - apply filter_perm. auto.
  - apply names_filter. apply (Permutation_NoDup (Permutation_map nv_name (Permutation_sym Hp))). apply (wn_names _ Hwf').
Qed.

(** ** The same weights *)
Lemma scope_worldly f x : In f (chance_factors n) -> In x (nf_given f ++ [nf_for f]) -> exists v, In v (worldly_of vars) /\ nv_name v = x.
Proof.
  intros Hf Hx. destruct (chance_in n Hwf f Hf) as (_ & Hk & _ & Ht).
  assert (G : forall v, var_named vars x = Some v -> kind vars x <> Some Utility -> exists v, In v (worldly_of vars) /\ nv_name v = x).
  { intros v Ev Hu. destruct (named_inv n x v Ev) as [Hv E]. exists v. split; auto. apply filter_In. split; auto. unfold is_kind. unfold kind in Hu. rewrite Ev in Hu. simpl in Hu.
    destruct (nv_type v); auto. }
  apply in_app_iff in Hx. destruct Hx as [Hx|[<-|[]]].
  - destruct (wt_given _ _ Ht _ Hx) as (_ & v & Ev). apply (G v); auto. apply (wt_parents _ _ Ht); auto.
  - destruct (wt_for _ _ Ht) as (v & Ev). apply (G v); auto. congruence.
Qed.
Lemma cond_match f f' t t' : In f (chance_factors n) -> same_table D n n' f f' -> match_on (worldly_of vars) t t' -> cond_prob vars f t = cond_prob vars' f' t'.
Proof.
  intros Hf Hst Hm. destruct (chance_in n Hwf f Hf) as (Hin & Hk & Htot & Ht). assert (Hkd : kind vars (nf_for f) <> Some Decision) by congruence.
  assert (Hmx : forall x, In x (nf_given f ++ [nf_for f]) -> same_outcome D n n' t t' x) by (intros x Hx; destruct (scope_worldly f x Hf Hx) as (v & Hv & <-); apply Hm; auto).
  pose proof (st_entries _ _ _ _ _ Hst Htot Hkd) as He.
  assert (Er : row_sum vars f t = row_sum vars' f' t').
  { unfold row_sum. destruct (scope_worldly f (nf_for f) Hf) as (v & Hv & Ev); [apply in_app_iff; right; left; auto|]. apply filter_In in Hv. destruct Hv as [Hv _].
    destruct (rw_node v Hv) as (v' & Hv' & E).
    unfold num_outcomes. rewrite (st_for _ _ _ _ _ Hst), <- Ev, (named_to v v' Hv Hv' E), (named_of n v Hwf Hv).
    apply (qsum_match (to_outcome D (nv_name v))); [apply E|apply (wn_distinct _ Hwf); auto|apply (wn_distinct _ Hwf'); auto|].
    intros i i' o Ei Ei'. symmetry. apply He. intros x Hx. destruct (scope_worldly f x Hf Hx) as (w & Hw & <-). rewrite <- (sn_to _ _ _ E).
    apply (match_upd v v' t t' i i' o [w]); auto.
    - intros z [<-|[]]. apply filter_In in Hw. apply Hw.
    - intros z [<-|[]] _. apply Hm. auto.
    - left. auto. }
  unfold cond_prob. rewrite Er, (He t t'); auto.
Qed.
Lemma chance_match f f' : In f (n_factors n) -> same_table D n n' f f' -> is_chance vars f = is_chance vars' f'.
Proof.
  intros Hf E. destruct (factor_named n f Hwf Hf) as (v & Hv & Ev). unfold is_chance. rewrite (st_for _ _ _ _ _ E), <- Ev, (kind_to v Hv). auto.
Qed.
Lemma tables_match t t' : match_on (worldly_of vars) t t' -> tables_weight vars (n_factors n) t = tables_weight vars' (n_factors n') t'.
Proof.
  intros Hm. destruct (rw_factors _ _ _ Hrw) as (l & Hp & HF). rewrite <- (weight_reorder vars' l (n_factors n') t' Hp).
  assert (K : forall a b, Forall2 (same_table D n n') a b -> incl a (n_factors n) -> tables_weight vars a t = tables_weight vars' b t').
  { induction 1 as [|f f' a b E HL IH]; intros Hi; auto. unfold tables_weight in *. simpl. rewrite <- (chance_match f f') by (auto; apply Hi; left; auto).
    destruct (is_chance vars f) eqn:Ec; [|apply IH; intros z Hz; apply Hi; right; auto]. cbn [map]. unfold qprod in *. cbn [fold_right]. rewrite IH by (intros z Hz; apply Hi; right; auto).
    rewrite (cond_match f f' t t'); auto. apply filter_In. split; [apply Hi; left; auto|]. exact Ec. }
  apply K; auto. apply incl_refl.
Qed.
Lemma joint_match ign ign' t t' : match_on (worldly_of vars) t t' -> joint n ign t = joint n' ign' t'.
Proof. intros Hm. rewrite !joint_open by apply Hrw. apply tables_match. auto. Qed.
Lemma joint_proper' ign' : nproper (joint n' ign').
Proof. intros s s' E. rewrite !joint_open by apply Hrw. apply weight_looks_all. auto. Qed.
Lemma mass_match ign ign' event event' : (forall t t', match_on (worldly_of vars) t t' -> event t = event' t') -> looks_event event' (fun _ => True) ->
  mass n ign event = mass n' ign' event'.
Proof.
  intros He Hl. rewrite !mass_nsum. apply world_sums.
  - apply (looks_proper _ (fun _ => True)). apply looks_mult; [apply flag_looks; auto|]. apply proper_looks. apply joint_proper'.
  - intros t t' Hm. rewrite (He t t' Hm), (joint_match ign ign' t t' Hm). auto.
Qed.
Lemma at_match v v' t t' i i' o : In v vars -> In v' vars' -> same_node D v v' -> same_outcome D n n' t t' (nv_name v) ->
  nth_error (nv_outcomes v) i = Some o -> nth_error (nv_outcomes v') i' = Some (to_outcome D (nv_name v) o) -> (t (nv_name v) =? i)%nat = (t' (nv_name v') =? i')%nat.
Proof.
  intros Hv Hv' E (o0 & E1 & E2) Ei Ei'. rewrite (outcome_of _ v Hv) in E1. rewrite (outcome_to _ v v' Hv Hv' E) in E2.
  pose proof (wn_distinct _ Hwf v Hv) as N1. pose proof (wn_distinct _ Hwf' v' Hv') as N2.
  destruct (Nat.eqb_spec (t (nv_name v)) i) as [Et|Nt]; destruct (Nat.eqb_spec (t' (nv_name v')) i') as [Et'|Nt']; auto; exfalso.
  - apply Nt'. rewrite Et, Ei in E1. injection E1 as <-. rewrite <- (position_nth _ _ _ N2 E2). apply (position_nth _ _ _ N2 Ei').
  - apply Nt. rewrite Et', Ei' in E2. injection E2 as E2. assert (o = o0) as ->.
    { rewrite <- (sn_back _ _ _ E o), <- (sn_back _ _ _ E o0), E2; auto; eapply nth_error_In; eauto. }
    rewrite <- (position_nth _ _ _ N1 E1). apply (position_nth _ _ _ N1 Ei).
Qed.
Lemma worldly_named x v : var_named vars x = Some v -> nv_type v <> Utility -> In v (worldly_of vars) /\ nv_name v = x.
Proof.
  intros Ev Ht. destruct (named_inv n x v Ev) as [Hv E]. split; auto. apply filter_In. split; auto. unfold is_kind. destruct (nv_type v); auto.
Qed.
Lemma agrees_match ev t t' : (forall x o, In (x, o) ev -> exists v, var_named vars x = Some v /\ nv_type v <> Utility /\ In o (nv_outcomes v)) ->
  match_on (worldly_of vars) t t' -> agrees vars ev t = agrees vars' (translate D ev) t'.
Proof.
  intros Hev Hm. unfold agrees, translate. induction ev as [|[x o] l IH]; auto. cbn [map forallb]. rewrite <- IH by (intros y p Hy; apply Hev; right; auto). f_equal.
  destruct (Hev x o (or_introl eq_refl)) as (v & Ev & Ht & Ho). destruct (worldly_named x v Ev Ht) as [Hw Ex]. rewrite Ev. subst x.
  assert (Hv : In v vars) by (apply filter_In in Hw; apply Hw). destruct (rw_node v Hv) as (v' & Hv' & E). rewrite (named_to v v' Hv Hv' E).
  destruct (Hm v Hw) as (o0 & E1 & E2). rewrite (outcome_of _ v Hv) in E1. rewrite (outcome_to _ v v' Hv Hv' E), (sn_to _ _ _ E) in E2. rewrite E1, E2.
  destruct (String.eqb_spec o0 o) as [Eo|N]; destruct (String.eqb_spec (to_outcome D (nv_name v) o0) (to_outcome D (nv_name v) o)) as [E'|N']; auto; try congruence.
  exfalso. apply N. rewrite <- (sn_back _ _ _ E o), <- (sn_back _ _ _ E o0), E'; auto. eapply nth_error_In; eauto.
Qed.
Lemma agrees_anything (vs : list nvar) ev : looks_event (agrees vs ev) (fun _ => True).
Proof. intros s s' E. unfold agrees. induction ev as [|[y o] l IH]; auto. simpl. rewrite (E y), IH; auto. Qed.
Lemma evidence_match ign ign' ev : valid_observations n ev -> mass n ign (agrees vars ev) = mass n' ign' (agrees vars' (translate D ev)).
Proof. intros [_ Hev]. apply mass_match; [|apply agrees_anything]. intros t t' Hm. apply agrees_match; auto. Qed.
Lemma posterior_match ign ign' ev v v' i i' o : valid_observations n ev -> In v vars -> nv_type v <> Utility -> In v' vars' -> same_node D v v' ->
  nth_error (nv_outcomes v) i = Some o -> nth_error (nv_outcomes v') i' = Some (to_outcome D (nv_name v) o) ->
  posterior n ign ev (nv_name v) i = posterior n' ign' (translate D ev) (nv_name v') i'.
Proof.
  intros Hev Hv Ht Hv' E Ei Ei'. unfold posterior. rewrite <- (evidence_match ign ign' ev Hev). f_equal. apply mass_match.
  - intros t t' Hm. rewrite (agrees_match ev t t'); auto; [|apply Hev]. f_equal. apply (at_match v v' t t' i i' o); auto. apply Hm. apply filter_In. split; auto. unfold is_kind. destruct (nv_type v); auto; congruence.
  - intros s s' Es. rewrite (agrees_anything _ _ s s' Es), (Es (nv_name v')); auto.
Qed.

(** ** The same queries *)
Lemma complete_to : complete n -> complete n'.
Proof.
  intros H v' Hv' Ht. destruct (rw_node' v' Hv') as (v & Hv & E). rewrite (sn_type _ _ _ E) in Ht. destruct (H v Hv Ht) as (f & Hf & Ef).
  destruct (rw_table f Hf) as (f' & Hf' & Est). exists f'. split; auto. rewrite (st_for _ _ _ _ _ Est), (sn_to _ _ _ E), Ef. auto.
Qed.
Lemma observations_to ev : valid_observations n ev -> valid_observations n' (translate D ev).
Proof.
  intros [Hn Hev]. split.
  - assert (E : map fst (translate D ev) = map (to_name D) (map fst ev)) by (unfold translate; rewrite !map_map; apply map_ext; intros [x o]; auto). rewrite E.
    assert (K : forall l, NoDup l -> (forall x, In x l -> exists v, In v vars /\ nv_name v = x) -> NoDup (map (to_name D) l)).
    { induction 1 as [|x l Hx Hl IH]; intros Hk; simpl; constructor.
      - intros Hin. apply in_map_iff in Hin. destruct Hin as (y & Ey & Hy). destruct (Hk x (or_introl eq_refl)) as (v & Hv & <-). destruct (Hk y (or_intror Hy)) as (w & Hw & <-).
        apply to_name_inj in Ey; auto. rewrite Ey in Hy. contradiction.
      - apply IH. intros y Hy. apply Hk. right. auto. }
    apply K; auto. intros x Hx. apply in_map_iff in Hx. destruct Hx as ([y o] & <- & Hin). destruct (Hev y o Hin) as (v & Ev & _). apply named_inv in Ev. exists v. auto.
  - intros y p Hin. unfold translate in Hin. apply in_map_iff in Hin. destruct Hin as ([x o] & Ex & Hin). injection Ex as <- <-. destruct (Hev x o Hin) as (v & Ev & Ht & Ho).
    destruct (named_inv n x v Ev) as [Hv <-]. destruct (rw_node v Hv) as (v' & Hv' & E). exists v'. rewrite (named_to v v' Hv Hv' E), (sn_type _ _ _ E). split; [|split]; auto.
    apply (Permutation_in _ (sn_outcomes _ _ _ E)). apply in_map. auto.
Qed.
Lemma table_chance_to f f' : In f (chance_factors n) -> In f' (n_factors n') -> same_table D n n' f f' -> In f' (chance_factors n').
Proof.
  intros Hf Hf' E. apply filter_In. split; auto. apply filter_In in Hf. destruct Hf as [Hf Hc]. pose proof (chance_match f f' Hf E) as K. unfold is_chance in K. congruence.
Qed.
Lemma askable_to ign ign' ev q : valid_observations n ev -> askable n ign ev q -> askable n' ign' (translate D ev) (to_name D q).
Proof.
  intros [_ Hev] ((v & Ev & Ht) & Hm & Hn). destruct (named_inv n q v Ev) as [Hv <-]. destruct (rw_node v Hv) as (v' & Hv' & E). split; [|split].
  - exists v'. rewrite (named_to v v' Hv Hv' E), (sn_type _ _ _ E). auto.
  - left. destruct Hm as [(f & Hf & Hx)|(d & p & i & w & w' & Hin & _)]; [|rewrite (rw_open _ _ _ Hrw) in Hin; destruct Hin].
    destruct (chance_in n Hwf f Hf) as (Hfin & _ & Htot & _). destruct (rw_table f Hfin) as (f' & Hf' & Est). exists f'. split; [apply (table_chance_to f f'); auto|].
    rewrite (st_for _ _ _ _ _ Est). apply in_app_iff. apply in_app_iff in Hx. destruct Hx as [Hx|[<-|[]]]; [left|right; left; auto].
    apply (Permutation_in _ (st_given _ _ _ _ _ Est Htot)). apply in_map. auto.
  - intros Hin. apply Hn. unfold translate in Hin. rewrite map_map in Hin. apply in_map_iff in Hin. destruct Hin as ([x o] & Ex & Hin). simpl in Ex.
    destruct (Hev x o Hin) as (w & Ew & _). destruct (named_inv n x w Ew) as [Hw <-]. apply to_name_inj in Ex; auto. rewrite <- Ex. apply in_map_iff. exists (nv_name w, o). auto.
Qed.
End One.

(** ** The other direction *)
Lemma table_scope (m : network xnum) f x : wf_network m -> In f (n_factors m) -> is_total m (nf_for f) = false -> In x (nf_given f ++ [nf_for f]) -> exists v, In v (n_vars m) /\ nv_name v = x.
Proof.
  intros H Hf Ht Hx. pose proof (wn_tables _ H _ Hf Ht) as W. apply in_app_iff in Hx. destruct Hx as [Hx|[<-|[]]].
  - destruct (wt_given _ _ W _ Hx) as (_ & v & Ev). apply named_inv in Ev. exists v. auto.
  - destruct (wt_for _ _ W) as (v & Ev). apply named_inv in Ev. exists v. auto.
Qed.
Lemma same_outcome_swap D n n' s s' v : wf_network n -> wf_network n' -> rewritten D n n' -> In v (n_vars n) -> same_outcome (swap D) n' n s' s (to_name D (nv_name v)) -> same_outcome D n n' s s' (nv_name v).
Proof.
  intros Hwf Hwf' Hrw Hv (o' & E1 & E2). cbn [swap to_name to_outcome] in *. destruct (rw_node D n n' Hrw v Hv) as (v' & Hv' & E).
  rewrite (back_name D n n' Hrw v Hv) in E2. exists (from_outcome D (to_name D (nv_name v)) o'). split; auto. rewrite E1. f_equal.
  rewrite (outcome_to D n n' Hwf' s' v v' Hv Hv' E) in E1. apply nth_error_In in E1. rewrite <- (sn_to _ _ _ E). symmetry. apply (sn_back _ _ _ (same_node_swap _ _ _ E) o' E1).
Qed.
Lemma same_outcome_swap' D n n' s s' v : wf_network n -> wf_network n' -> rewritten D n n' -> In v (n_vars n) -> same_outcome D n n' s s' (nv_name v) -> same_outcome (swap D) n' n s' s (to_name D (nv_name v)).
Proof.
  intros Hwf Hwf' Hrw Hv (o & E1 & E2). destruct (rw_node D n n' Hrw v Hv) as (v' & Hv' & E). exists (to_outcome D (nv_name v) o). cbn [swap to_name to_outcome]. split; auto.
  rewrite (back_name D n n' Hrw v Hv), E1. f_equal. rewrite (outcome_of n Hwf s v Hv) in E1. apply nth_error_In in E1. rewrite <- (sn_to _ _ _ E). symmetry. apply (sn_back _ _ _ E o E1).
Qed.
Theorem rewritten_swap D n n' : wf_network n -> wf_network n' -> rewritten D n n' -> rewritten (swap D) n' n.
Proof.
  intros Hwf Hwf' Hrw. constructor.
  - apply (perm_flip (same_node D)); [|apply Hrw]. intros v v' _ _. apply same_node_swap.
  - apply (perm_flip (same_table D n n')); [|apply Hrw]. intros f f' Hf Hf' [E1 E2 E3]. destruct (factor_named n f Hwf Hf) as (v & Hv & Ev).
    assert (Et : is_total n' (nf_for f') = is_total n (nf_for f)) by (rewrite E1, <- Ev; apply (rw_total _ _ _ Hrw); auto).
    assert (Ek : kind (n_vars n') (nf_for f') = kind (n_vars n) (nf_for f)) by (rewrite E1, <- Ev; apply (kind_to D n n' Hwf Hwf' Hrw); auto).
    constructor; rewrite ?Et, ?Ek; cbn [swap to_name].
    + rewrite E1, <- Ev. symmetry. apply (back_name D n n' Hrw). auto.
    + intros Ht. rewrite <- (Permutation_map (from_name D) (E2 Ht)), map_map. erewrite map_ext_in; [rewrite map_id; reflexivity|].
      intros x Hx. simpl. destruct (table_scope n f x Hwf Hf Ht) as (w & Hw & <-); [apply in_app_iff; auto|]. apply (back_name D n n' Hrw). auto.
    + intros Ht Hk s' s Hs. symmetry. apply E3; auto. intros x Hx. destruct (table_scope n f x Hwf Hf Ht Hx) as (w & Hw & <-).
      apply same_outcome_swap; auto. apply Hs. rewrite E1. apply in_app_iff. apply in_app_iff in Hx. destruct Hx as [Hx|[Hx|[]]]; [left|right; left; congruence].
      apply (Permutation_in _ (E2 Ht)). apply in_map. auto.
  - intros v' Hv'. destruct (rw_node' D n n' Hrw v' Hv') as (v & Hv & E). cbn [swap to_name]. rewrite <- (sn_from _ _ _ E), (sn_to _ _ _ E). symmetry. apply (rw_total _ _ _ Hrw). auto.
  - intros v' Hv' Ht Htot. destruct (rw_node' D n n' Hrw v' Hv') as (v & Hv & E). cbn [swap to_name]. rewrite (sn_type _ _ _ E) in Ht. rewrite (sn_to _ _ _ E), (rw_total _ _ _ Hrw) in Htot by auto.
    rewrite <- (sn_from _ _ _ E), (sn_to _ _ _ E). symmetry. apply (rw_weights _ _ _ Hrw); auto.
  - apply Hrw.
  - apply Hrw.
Qed.

(** ** The same decisions *)
Lemma the_factor (fs : list (nfactor xnum)) f : NoDup (map nf_for fs) -> In f fs -> factor_for fs (nf_for f) = Some f.
Proof.
  intros Hn Hf. unfold factor_for. induction fs as [|g l IH]; [destruct Hf|]. cbn [find map] in *. inversion Hn as [|? ? Hg Hl]; subst. destruct Hf as [->|Hf]; [rewrite String.eqb_refl; auto|].
  destruct (String.eqb_spec (nf_for g) (nf_for f)) as [E|E]; [|apply IH; auto]. exfalso. apply Hg. rewrite E. apply in_map. auto.
Qed.
Section Policies.
Variable D : dictionary.
Variables n n' : network xnum.
Hypothesis Hdn : decision_network n.
Hypothesis Hdn' : decision_network n'.
Hypothesis Hrw : rewritten D n n'.
Notation vars := (n_vars n).
Notation vars' := (n_vars n').
Let Hwf := dn_wf n Hdn.
Let Hwf' := dn_wf n' Hdn'.

Lemma decision_node d : In d (decisions n) -> exists v, In v vars /\ nv_name v = d /\ nv_type v = Decision.
Proof.
  intros H. apply in_map_iff in H. destruct H as (v & E & Hv). apply filter_In in Hv. destruct Hv as [Hv Hk]. exists v. split; [|split]; auto. unfold is_kind in Hk. destruct (nv_type v); auto; discriminate.
Qed.
Lemma decisions_match : Permutation (map (to_name D) (decisions n)) (decisions n').
Proof.
  destruct (rw_vars _ _ _ Hrw) as (l & Hp & HF). unfold decisions. rewrite <- (Permutation_map nv_name (filter_perm (is_kind Decision) _ _ Hp)). apply Permutation_refl'. clear - HF.
  induction HF as [|v v' a b E HF IH]; auto. cbn [filter]. assert (Ek : is_kind Decision v' = is_kind Decision v) by (unfold is_kind; rewrite (sn_type _ _ _ E); auto).
  rewrite Ek. destruct (is_kind Decision v); auto. cbn [map]. rewrite IH, (sn_to _ _ _ E). auto.
Qed.
Lemma decision_total d : In d (decisions n) -> is_total n d = false.
Proof.
  intros Hd. destruct (decision_node d Hd) as (v & Hv & <- & Ht). destruct (is_total n (nv_name v)) eqn:E; auto. apply (total_kind n Hwf) in E. unfold kind in E. rewrite (named_of n v Hwf Hv) in E. simpl in E. congruence.
Qed.
Lemma observed_match d : In d (decisions n) -> Permutation (map (to_name D) (observed_by n d)) (observed_by n' (to_name D d)).
Proof.
  intros Hd. unfold observed_by. destruct (factor_for (n_factors n) d) as [f|] eqn:Ef.
  - apply find_some in Ef. destruct Ef as [Hf Ef]. apply String.eqb_eq in Ef. subst d. destruct (rw_table D n n' Hrw f Hf) as (f' & Hf' & E).
    rewrite <- (st_for _ _ _ _ _ E), (the_factor _ f' (dn_single _ Hdn') Hf'). apply (st_given _ _ _ _ _ E). apply decision_total. auto.
  - destruct (factor_for (n_factors n') (to_name D d)) as [f'|] eqn:Ef'; auto. exfalso. apply find_some in Ef'. destruct Ef' as [Hf' Ef']. apply String.eqb_eq in Ef'.
    destruct (rw_table' D n n' Hrw f' Hf') as (f & Hf & E). rewrite (st_for _ _ _ _ _ E) in Ef'. destruct (factor_named n f Hwf Hf) as (w & Hw & Ew). destruct (decision_node d Hd) as (v & Hv & Ev & _).
    rewrite <- Ew, <- Ev in Ef'. apply (to_name_inj D n n' Hrw) in Ef'; auto. unfold factor_for in Ef. apply (find_none _ _ Ef) in Hf. rewrite <- Ew, Ef', Ev, String.eqb_refl in Hf. discriminate.
Qed.
Lemma observed_worldly d x : In d (decisions n) -> x = d \/ In x (observed_by n d) -> exists v, In v (worldly_of vars) /\ nv_name v = x.
Proof.
  intros Hd [->|Hx].
  - destruct (decision_node d Hd) as (v & Hv & E & Ht). exists v. split; auto. apply filter_In. split; auto. unfold is_kind. rewrite Ht. auto.
  - unfold observed_by in Hx. destruct (factor_for (n_factors n) d) as [f|] eqn:Ef; [|destruct Hx]. apply find_some in Ef. destruct Ef as [Hf Ef]. apply String.eqb_eq in Ef. subst d.
    pose proof (wn_tables _ Hwf f Hf (decision_total _ Hd)) as W. destruct (wt_given _ _ W x Hx) as (_ & v & Ev). apply (worldly_named n x v) in Ev; eauto.
    pose proof (wt_parents _ _ W x Hx) as K. unfold kind in K. rewrite Ev in K. simpl in K. congruence.
Qed.

(** The state of [n] for a state of [n']. *)
Definition back (s' : nstate) : nstate := fun x =>
  match var_named vars x, outcome_in vars' s' (to_name D x) with
  | Some v, Some o' => position (from_outcome D (to_name D x) o') (nv_outcomes v)
  | _, _ => 0%nat
  end.
Lemma back_match s' v v' : In v vars -> In v' vars' -> same_node D v v' -> (s' (nv_name v') < List.length (nv_outcomes v'))%nat -> same_outcome D n n' (back s') s' (nv_name v).
Proof.
  intros Hv Hv' E Hs. destruct (nth_error (nv_outcomes v') (s' (nv_name v'))) as [o'|] eqn:Eo; [|apply nth_error_None in Eo; lia].
  pose proof (nth_error_In _ _ Eo) as Ho. apply (Permutation_in _ (Permutation_sym (sn_outcomes _ _ _ E))) in Ho. apply in_map_iff in Ho. destruct Ho as (o & Eo' & Ho).
  assert (E2 : outcome_in vars' s' (to_name D (nv_name v)) = Some o') by (rewrite (outcome_to D n n' Hwf' s' v v' Hv Hv' E); auto).
  exists o. rewrite E2, Eo'. split; auto. rewrite (outcome_of n Hwf _ v Hv). unfold back. rewrite (named_of n v Hwf Hv), E2, <- (sn_to _ _ _ E), <- Eo', (sn_back _ _ _ E o Ho). apply nth_position. auto.
Qed.
Lemma match_back t t' v : In v vars -> same_outcome D n n' t t' (nv_name v) -> t (nv_name v) = back t' (nv_name v).
Proof.
  intros Hv (o & E1 & E2). destruct (rw_node D n n' Hrw v Hv) as (v' & Hv' & E). unfold back. rewrite (named_of n v Hwf Hv), E2. rewrite (outcome_of n Hwf _ v Hv) in E1.
  rewrite <- (sn_to _ _ _ E), (sn_back _ _ _ E o) by (eapply nth_error_In; eauto). symmetry. apply position_nth; auto. apply (wn_distinct _ Hwf). auto.
Qed.
Lemma back_proper s' : proper_state n' s' -> proper_state n (back s').
Proof.
  intros Hs v Hv. destruct (rw_node D n n' Hrw v Hv) as (v' & Hv' & E). destruct (back_match s' v v' Hv Hv' E (Hs v' Hv')) as (o & E1 & _). rewrite (outcome_of n Hwf _ v Hv) in E1.
  apply nth_error_Some. congruence.
Qed.
Lemma policy_to d p : In d (decisions n) -> policy_for n d p -> policy_for n' (to_name D d) (fun s' => p (back s')).
Proof.
  intros Hd Hp. constructor.
  - intros s' Hs. apply (pf_nonneg _ _ _ Hp). apply back_proper. auto.
  - intros s' Hs. rewrite <- (pf_rows _ _ _ Hp (back s') (back_proper s' Hs)). destruct (decision_node d Hd) as (v & Hv & <- & Ht). destruct (rw_node D n n' Hrw v Hv) as (v' & Hv' & E).
    unfold num_outcomes. rewrite (named_to D n n' Hwf' v v' Hv Hv' E), (named_of n v Hwf Hv). symmetry.
    apply (qsum_match (to_outcome D (nv_name v))); [apply E|apply (wn_distinct _ Hwf); auto|apply (wn_distinct _ Hwf'); auto|].
    intros i i' o Ei Ei'. apply (pf_observed _ _ _ Hp). intros y Hy. destruct (observed_worldly _ y Hd Hy) as (w & Hw & <-). apply filter_In in Hw. destruct Hw as [Hw _].
    apply match_back; auto. rewrite <- (sn_to _ _ _ E). apply (match_upd D n n' Hwf Hwf' Hrw v v' (back s') s' i i' o [w]); auto.
    + intros z [<-|[]]. auto.
    + intros z [<-|[]] _. destruct (rw_node D n n' Hrw w Hw) as (w' & Hw' & Ew). apply (back_match s' w w'); auto.
    + left. auto.
  - intros s1 s2 H. apply (pf_observed _ _ _ Hp). intros y Hy. unfold back. assert (E : s1 (to_name D y) = s2 (to_name D y)).
    { apply H. destruct Hy as [->|Hy]; [left; auto|right]. apply (Permutation_in _ (observed_match d Hd)). apply in_map. auto. }
    unfold outcome_in. rewrite E. auto.
Qed.

Definition rewards_of : list nvar := filter (fun v => is_kind Utility v && negb (is_total n (nv_name v))) vars.
Lemma rewards_match : match_on D n n' rewards_of nowhere nowhere.
Proof.
  intros v Hv. apply filter_In in Hv. destruct Hv as [Hv H]. apply andb_true_iff in H. destruct H as [Hk Ht]. apply negb_true_iff in Ht. unfold is_kind in Hk.
  assert (Hu : nv_type v = Utility) by (destruct (nv_type v); auto; discriminate). destruct (proj1 (dn_utilities _ Hdn) v Hv Hu Ht) as [Hl _].
  destruct (rw_node D n n' Hrw v Hv) as (v' & Hv' & E). pose proof (sn_outcomes _ _ _ E) as Hp. destruct (nv_outcomes v) as [|o [|? ?]] eqn:Eo; try discriminate. cbn [map] in Hp.
  apply Permutation_length_1_inv in Hp. exists o. rewrite (outcome_of n Hwf _ v Hv), (outcome_to D n n' Hwf' _ v v' Hv Hv' E), Eo, Hp. auto.
Qed.
Lemma reward_sums F F' : nproper F' -> (forall t t', match_on D n n' (rewards_of ++ worldly_of vars) t t' -> F t = F' t') ->
  nsum F (worldly_of vars) nowhere = nsum F' (worldly_of vars') nowhere.
Proof.
  intros HF' H. destruct (rw_vars _ _ _ Hrw) as (l & Hp & HF2). rewrite <- (nsum_perm F' (worldly_of l) (worldly_of vars')); auto.
  - apply (sum_match D n n' Hwf Hwf' Hrw F F' (worldly_of vars) (worldly_of l) (worldly_match D _ _ HF2)) with (done := rewards_of).
    + intros v Hv. apply filter_In in Hv. apply Hv.
    + intros v Hv. apply filter_In in Hv. apply (Permutation_in _ Hp). apply Hv.
    + apply names_filter. apply (wn_names _ Hwf).
    + intros v Hv. apply filter_In in Hv. apply Hv.
    + intros v w Hv Hw En. apply filter_In in Hv, Hw. destruct Hv as [Hv Kv], Hw as [Hw Kw]. rewrite (same_var vars (wn_names _ Hwf) v w Hv Hw En) in Kv.
      apply andb_true_iff in Kv. destruct Kv as [Kv _]. rewrite Kv in Kw. discriminate.
    + apply rewards_match.
    + exact H.
  - apply filter_perm. auto.
  - apply names_filter. apply (Permutation_NoDup (Permutation_map nv_name (Permutation_sym Hp))). apply (wn_names _ Hwf').
Qed.
Lemma utility_match t t' : match_on D n n' (rewards_of ++ worldly_of vars) t t' -> utility_of n t = utility_of n' t'.
Proof.
  intros Hm. destruct (rw_factors _ _ _ Hrw) as (l & Hp & HF). unfold utility_of, utility_tables. fold (is_utility_table n) (is_utility_table n').
  rewrite <- (qsum_perm _ _ (Permutation_map _ (filter_perm (is_utility_table n') _ _ Hp))).
  assert (K : forall a b, Forall2 (same_table D n n') a b -> incl a (n_factors n) -> qsum (map (fun f => net_weight n (nf_for f) * entry vars f t)%Qc (filter (is_utility_table n) a)) =
    qsum (map (fun f => net_weight n' (nf_for f) * entry vars' f t')%Qc (filter (is_utility_table n') b))).
  { induction 1 as [|f f' a b E HL IH]; intros Hi; auto. simpl. assert (Hf : In f (n_factors n)) by (apply Hi; left; auto).
    destruct (factor_named n f Hwf Hf) as (v & Hv & Ev).
    assert (Eu : is_utility_table n' f' = is_utility_table n f).
    { unfold is_utility_table. rewrite (st_for _ _ _ _ _ E), <- Ev, (rw_total _ _ _ Hrw v Hv), (kind_to D n n' Hwf Hwf' Hrw v Hv). auto. }
    rewrite Eu. destruct (is_utility_table n f) eqn:Et; [|apply IH; intros z Hz; apply Hi; right; auto]. cbn [map]. unfold qsum in *. cbn [fold_right].
    rewrite IH by (intros z Hz; apply Hi; right; auto). f_equal. unfold is_utility_table in Et. apply andb_true_iff in Et. destruct Et as [Et Ek]. apply negb_true_iff in Et.
    assert (Eku : kind vars (nf_for f) = Some Utility) by (destruct (kind vars (nf_for f)) as [[]|]; auto; discriminate).
    assert (Evu : nv_type v = Utility) by (rewrite <- Ev in Eku; unfold kind in Eku; rewrite (named_of n v Hwf Hv) in Eku; injection Eku; auto).
    rewrite (st_for _ _ _ _ _ E). rewrite <- Ev at 2. rewrite (rw_weights _ _ _ Hrw v Hv Evu) by (rewrite Ev; auto). rewrite Ev. f_equal.
    symmetry. apply (st_entries _ _ _ _ _ E); auto; [congruence|]. intros x Hx. destruct (table_scope n f x Hwf Hf Et Hx) as (w & Hw & <-). apply Hm. apply in_app_iff.
    apply in_app_iff in Hx. destruct Hx as [Hx|[Hx|[]]].
    - right. apply filter_In. split; auto. pose proof (wt_parents _ _ (wn_tables _ Hwf f Hf Et) _ Hx) as Kx. unfold kind in Kx. rewrite (named_of n w Hwf Hw) in Kx. simpl in Kx.
      unfold is_kind. destruct (nv_type w); auto.
    - left. apply filter_In. split; auto. rewrite <- Hx, Et. rewrite Hx in Eku. unfold kind in Eku. rewrite (named_of n w Hwf Hw) in Eku. unfold is_kind. injection Eku as ->. auto. }
  apply K; auto. apply incl_refl.
Qed.
Lemma value_match p : (forall d, In d (decisions n) -> policy_for n d (p d)) -> expected_value n p = expected_value n' (fun d' s' => p (from_name D d') (back s')).
Proof.
  intros Hp. change (nsum (fun s => tables_weight vars (n_factors n) s * qprod (map (fun d => p d s) (decisions n)) * utility_of n s)%Qc (worldly_of vars) nowhere =
    nsum (fun s => tables_weight vars' (n_factors n') s * qprod (map (fun d' => p (from_name D d') (back s)) (decisions n')) * utility_of n' s)%Qc (worldly_of vars') nowhere).
  apply reward_sums.
  - intros s s' E. rewrite (utility_looks n' s s' E). f_equal. f_equal.
    + apply weight_looks_all. auto.
    + f_equal. apply map_ext_in. intros d' Hd'. apply (Permutation_in _ (Permutation_sym decisions_match)) in Hd'. apply in_map_iff in Hd'. destruct Hd' as (d & <- & Hd).
      destruct (decision_node d Hd) as (v & Hv & <- & _). rewrite (back_name D n n' Hrw v Hv). apply (policy_proper' n _ _ (Hp _ Hd)). intros x. unfold back, outcome_in. rewrite E. auto.
  - intros t t' Hm. rewrite (utility_match t t' Hm). f_equal. f_equal.
    + apply (tables_match D n n' Hwf Hwf' Hrw). intros v Hv. apply Hm. apply in_app_iff. auto.
    + rewrite <- (qprod_perm _ _ (Permutation_map _ decisions_match)), map_map. f_equal. apply map_ext_in. intros d Hd. destruct (decision_node d Hd) as (v & Hv & Ev & _).
      rewrite <- Ev at 2. rewrite (back_name D n n' Hrw v Hv), Ev. apply (pf_observed _ _ _ (Hp d Hd)). intros y Hy. destruct (observed_worldly d y Hd Hy) as (w & Hw & <-).
      apply match_back; [apply filter_In in Hw; apply Hw|]. apply Hm. apply in_app_iff. auto.
Qed.
Lemma forgetting_to : no_forgetting n -> no_forgetting n'.
Proof.
  intros H d' e' Hd' He' Hne. apply (Permutation_in _ (Permutation_sym decisions_match)) in Hd', He'. apply in_map_iff in Hd', He'. destruct Hd' as (d & <- & Hd), He' as (e & <- & He).
  assert (Hde : d <> e) by (intros ->; auto).
  assert (K : forall d e, In d (decisions n) -> In e (decisions n) -> In d (observed_by n e) /\ incl (observed_by n d) (observed_by n e) ->
    In (to_name D d) (observed_by n' (to_name D e)) /\ incl (observed_by n' (to_name D d)) (observed_by n' (to_name D e))).
  { intros a b Ha Hb [H1 H2]. split; [apply (Permutation_in _ (observed_match b Hb)), in_map; auto|]. intros x Hx. apply (Permutation_in _ (Permutation_sym (observed_match a Ha))) in Hx.
    apply (Permutation_in _ (observed_match b Hb)). apply in_map_iff in Hx. destruct Hx as (y & <- & Hy). apply in_map. auto. }
  destruct (H d e Hd He Hde) as [G|G]; [left|right]; apply K; auto.
Qed.
End Policies.

Lemma rewritten_le D n n' p : decision_network n -> decision_network n' -> rewritten D n n' -> (forall d, In d (decisions n) -> policy_for n d (p d)) ->
  exists p', (forall d, In d (decisions n') -> policy_for n' d (p' d)) /\ expected_value n' p' = expected_value n p.
Proof.
  intros Hdn Hdn' Hrw Hp. exists (fun d' s' => p (from_name D d') (back D n n' s')). split.
  - intros d' Hd'. apply (Permutation_in _ (Permutation_sym (decisions_match D n n' Hrw))) in Hd'. apply in_map_iff in Hd'. destruct Hd' as (d & <- & Hd).
    destruct (decision_node n d Hd) as (v & Hv & <- & _). rewrite (back_name D n n' Hrw v Hv). apply (policy_to D n n' Hdn Hdn' Hrw); auto.
  - symmetry. apply value_match; auto.
Qed.
Theorem rewritten_maximum D n n' : decision_network n -> decision_network n' -> rewritten D n n' -> no_forgetting n -> exists b, maximum_utility n b /\ maximum_utility n' b.
Proof.
  intros Hdn Hdn' Hrw Hnf. destruct (maximum_exists n Hdn Hnf) as (b & Hb & (p & Hp & Ep) & Hmax).
  destruct (maximum_exists n' Hdn' (forgetting_to D n n' Hdn Hdn' Hrw Hnf)) as (b' & Hb' & (p' & Hp' & Ep') & Hmax').
  exists b. split; auto. replace b with b'; auto. clear Hb Hb'. apply Qcle_antisym.
  - destruct (rewritten_le (swap D) n' n p' Hdn' Hdn (rewritten_swap D n n' (dn_wf _ Hdn) (dn_wf _ Hdn') Hrw) Hp') as (q & Hq & Eq). rewrite <- Ep', <- Eq. apply Hmax. auto.
  - destruct (rewritten_le D n n' p Hdn Hdn' Hrw Hp) as (q & Hq & Eq). rewrite <- Ep, <- Eq. apply Hmax'. auto.
Qed.
