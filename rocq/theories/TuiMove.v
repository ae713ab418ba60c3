(** The positions of the nodes matter to nothing but the picture. *)
From Coq Require Import ZArith List Bool String Lia QArith Qcanon.
From Verif Require Import Num GoBase VarModel GoFacts Tuples SpecFactor XnumFacts VEModel SpecVE NetModel SpecNet NetVars SpecTui.
Import ListNotations.
Open Scope string_scope.
Open Scope list_scope.
Open Scope Z_scope.

Definition same_node (v w : nvar) : Prop :=
  nv_name w = nv_name v /\ nv_type w = nv_type v /\ nv_outcomes w = nv_outcomes v /\ nv_factor w = nv_factor v.
(** The same networks up to positions and the state of the solver. *)
Record relaid (n m : network xnum) : Prop := {
  rl_vars : Forall2 same_node (n_vars n) (n_vars m);
  rl_factors : n_factors m = n_factors n;
  rl_policies : n_policies m = n_policies n;
  rl_tui : n_tui m = n_tui n;
  rl_name : n_name m = n_name n
}.

Lemma same_node_sym v w : same_node v w -> same_node w v.
Proof. intros (H1 & H2 & H3 & H4). repeat split; auto. Qed.
Lemma relaid_sym n m : relaid n m -> relaid m n.
Proof.
  intros [H1 H2 H3 H4 H5]. constructor; auto. clear - H1. induction H1; constructor; auto using same_node_sym.
Qed.
Lemma relaid_refl n : relaid n n.
Proof. constructor; auto. induction (n_vars n); constructor; auto. repeat split. Qed.
Lemma relaid_trans n m k : relaid n m -> relaid m k -> relaid n k.
Proof.
  intros [H1 H2 H3 H4 H5] [K1 K2 K3 K4 K5]. constructor; try congruence. clear - H1 K1. revert K1. generalize (n_vars k). induction H1; intros L K; inversion K as [|? ? ? ? HR]; subst; constructor; auto.
  destruct H as (A1 & A2 & A3 & A4). destruct HR as (B1 & B2 & B3 & B4). repeat split; congruence.
Qed.
Lemma relaid_solver n a b : relaid n (with_solver n a b).
Proof. destruct (relaid_refl n) as [H _ _ _ _]. constructor; auto. Qed.

Section Vars.
Variables vars vars' : list nvar.
Hypothesis Hs : Forall2 same_node vars vars'.

Lemma re_named x : match var_named vars x, var_named vars' x with Some v, Some w => same_node v w | None, None => True | _, _ => False end.
Proof.
  unfold var_named. induction Hs as [|v w l l' Hvw HF IH]; simpl; auto. destruct Hvw as (H1 & H2 & H3 & H4). rewrite H1.
  destruct (String.eqb (nv_name v) x); [repeat split; auto|apply IH; auto].
Qed.
Lemma re_nth k : match nth_error vars k, nth_error vars' k with Some v, Some w => same_node v w | None, None => True | _, _ => False end.
Proof. revert k. induction Hs as [|v w l l' Hvw HF IH]; intros [|k]; simpl; auto. apply IH. auto. Qed.
Lemma re_in v : In v vars' -> exists w, In w vars /\ same_node w v.
Proof.
  intros H. apply In_nth_error in H. destruct H as [k Hk]. pose proof (re_nth k) as H. rewrite Hk in H. destruct (nth_error vars k) as [w|] eqn:E; [|contradiction].
  exists w. split; auto. eapply nth_error_In; eauto.
Qed.
Lemma re_names : map nv_name vars' = map nv_name vars.
Proof. induction Hs as [|v w l l' Hvw HF IH]; simpl; auto. destruct Hvw as (-> & _). f_equal; auto. Qed.
Lemma re_len : List.length vars' = List.length vars.
Proof. rewrite <- (map_length nv_name vars'), re_names, map_length. auto. Qed.
Lemma re_outcomes x : num_outcomes vars' x = num_outcomes vars x.
Proof. unfold num_outcomes. pose proof (re_named x) as H. destruct (var_named vars x), (var_named vars' x); try contradiction; auto. destruct H as (_ & _ & -> & _). auto. Qed.
Lemma re_kind x : kind vars' x = kind vars x.
Proof. unfold kind. pose proof (re_named x) as H. destruct (var_named vars x), (var_named vars' x); try contradiction; auto. destruct H as (_ & H & _). simpl. congruence. Qed.
Lemma re_cell names s : cell vars' names s = cell vars names s.
Proof. unfold cell. generalize 0%nat. induction names as [|x l IH]; intros i; simpl; auto. rewrite re_outcomes. auto. Qed.
Lemma re_entry f s : entry vars' f s = entry vars f s.
Proof. unfold entry. rewrite re_cell. auto. Qed.
Lemma re_row_sum f s : row_sum vars' f s = row_sum vars f s.
Proof. unfold row_sum. rewrite re_outcomes. f_equal. apply map_ext. intros k. apply re_entry. Qed.
Lemma re_cond f s : cond_prob vars' f s = cond_prob vars f s.
Proof. unfold cond_prob. rewrite re_row_sum, re_entry. auto. Qed.
Lemma re_positions s i : positions vars' s i = positions vars s i.
Proof. unfold positions. pose proof (re_nth (Z.to_nat i)) as H. destruct (nth_error vars _), (nth_error vars' _); try contradiction; auto. destruct H as (-> & _). auto. Qed.
Lemma re_policy p s : policy_prob vars' p s = policy_prob vars p s.
Proof.
  unfold policy_prob, value, get_at. replace (tuple_of (f_vars p) (positions vars' s)) with (tuple_of (f_vars p) (positions vars s)); auto.
  apply map_ext. intros v. rewrite re_positions. auto.
Qed.
Lemma re_agrees ev s : agrees vars' ev s = agrees vars ev s.
Proof.
  unfold agrees. induction ev as [|[x o] l IH]; simpl; auto. rewrite IH. f_equal. pose proof (re_named x) as H.
  destruct (var_named vars x), (var_named vars' x); try contradiction; auto. destruct H as (_ & _ & -> & _). auto.
Qed.
Lemma re_states : forall s, joint_states vars' s = joint_states vars s.
Proof.
  induction Hs as [|v w l l' Hvw HF IH]; intros s; simpl; auto. destruct Hvw as (-> & _ & -> & _). induction (seq 0 _); simpl; auto. rewrite IH by auto. congruence.
Qed.
Lemma re_filter : Forall2 same_node (filter (fun v => negb (is_kind Utility v)) vars) (filter (fun v => negb (is_kind Utility v)) vars').
Proof.
  induction Hs as [|v w l l' Hvw HF IH]; simpl; auto. pose proof Hvw as (_ & E & _).
  assert (E2 : is_kind Utility w = is_kind Utility v) by (unfold is_kind; rewrite E; auto). rewrite E2. destruct (negb (is_kind Utility v)); auto.
Qed.
Lemma re_size names : table_size vars' names = table_size vars names.
Proof. induction names; simpl; auto. rewrite re_outcomes, IHnames. auto. Qed.
End Vars.

Section Nets.
Variables n m : network xnum.
Hypothesis Hr : relaid n m.
Let Hs : Forall2 same_node (n_vars n) (n_vars m) := rl_vars n m Hr.

Lemma re_worlds : worlds_of m = worlds_of n.
Proof. unfold worlds_of. apply re_states. apply re_filter. auto. Qed.
Lemma re_chance : chance_factors m = chance_factors n.
Proof. unfold chance_factors. rewrite (rl_factors n m Hr). apply filter_ext. intros f. rewrite (re_kind _ _ Hs). auto. Qed.
Lemma re_joint ign s : joint m ign s = joint n ign s.
Proof.
  unfold joint. rewrite re_chance, (rl_policies n m Hr). f_equal; f_equal; apply map_ext; intros; [apply re_cond|apply re_policy]; auto.
Qed.
Lemma re_sum F G p q : (forall s, F s = G s) -> (forall s, p s = q s) -> sum_over m F p = sum_over n G q.
Proof. intros H1 H2. unfold sum_over. rewrite re_worlds, (filter_ext _ _ H2), (map_ext _ _ H1). auto. Qed.
Lemma re_mass ign p q : (forall s, p s = q s) -> mass m ign p = mass n ign q.
Proof. intros H. apply (re_sum (joint m ign) (joint n ign)); auto. intros; apply re_joint. Qed.
Lemma re_posterior ign ev x k : posterior m ign ev x k = posterior n ign ev x k.
Proof.
  unfold posterior. rewrite (re_mass ign (agrees (n_vars m) ev) (agrees (n_vars n) ev)) by (intros; apply re_agrees; auto).
  rewrite (re_mass ign (fun s => agrees (n_vars m) ev s && (s x =? k)%nat) (fun s => agrees (n_vars n) ev s && (s x =? k)%nat)); auto.
  intros s. rewrite (re_agrees _ _ Hs). auto.
Qed.
Lemma re_is_total x : is_total m x = is_total n x.
Proof.
  unfold is_total. rewrite (rl_tui n m Hr). pose proof (re_nth _ _ Hs (Z.to_nat (n_tui n))) as H.
  destruct (nth_error (n_vars n) _), (nth_error (n_vars m) _); try contradiction; auto. destruct H as (-> & _). auto.
Qed.
Lemma re_total_factor : total_factor m = total_factor n.
Proof.
  unfold total_factor. rewrite (rl_tui n m Hr), (rl_factors n m Hr). pose proof (re_nth _ _ Hs (Z.to_nat (n_tui n))) as H.
  destruct (nth_error (n_vars n) _), (nth_error (n_vars m) _); try contradiction; auto. destruct H as (_ & _ & _ & ->). auto.
Qed.
Lemma re_utility_tables : utility_tables m = utility_tables n.
Proof. unfold utility_tables. rewrite (rl_factors n m Hr). apply filter_ext. intros f. rewrite re_is_total, (re_kind _ _ Hs). auto. Qed.
Lemma re_utility_of s : utility_of m s = utility_of n s.
Proof.
  unfold utility_of. rewrite re_utility_tables. f_equal. apply map_ext. intros f. unfold net_weight. rewrite re_total_factor, (re_entry _ _ Hs). auto.
Qed.
Lemma re_one_utility u s : one_utility m u s = one_utility n u s.
Proof.
  unfold one_utility. rewrite re_utility_tables. f_equal. apply map_ext. intros f. apply re_entry. auto.
Qed.
Lemma re_expectation ign ev F G : (forall s, F s = G s) -> shown_expectation m ign ev F = shown_expectation n ign ev G.
Proof.
  intros H. unfold shown_expectation. rewrite (re_mass ign (agrees (n_vars m) ev) (agrees (n_vars n) ev)) by (intros; apply re_agrees; auto).
  rewrite (re_sum (fun s => joint m ign s * F s)%Qc (fun s => joint n ign s * G s)%Qc (agrees (n_vars m) ev) (agrees (n_vars n) ev)); auto.
  - intros s. rewrite re_joint, H. auto.
  - intros s. apply re_agrees. auto.
Qed.
Lemma re_shown_posterior ign ev x k : shown_posterior m ign ev x k = shown_posterior n ign ev x k.
Proof.
  unfold shown_posterior. rewrite (re_mass ign (agrees (n_vars m) ev) (agrees (n_vars n) ev)) by (intros; apply re_agrees; auto). rewrite re_posterior. auto.
Qed.
Lemma re_shown ig ev v w : same_node v w -> shown_numbers m ig ev w = shown_numbers n ig ev v.
Proof.
  intros (H1 & H2 & H3 & H4). unfold shown_numbers, one_hot. rewrite H1, H2, H3, re_is_total, re_total_factor.
  rewrite (re_expectation _ _ (utility_of m) (utility_of n) re_utility_of).
  destruct (sget_map ev (nv_name v)); auto. destruct (is_total n (nv_name v)).
  - destruct (total_factor n); auto. f_equal. apply map_ext. intros [g x]. rewrite (re_expectation _ _ (one_utility m g) (one_utility n g) (re_one_utility g)). auto.
  - destruct (nv_type v); try (apply map_ext; intros; apply re_shown_posterior).
    rewrite (re_expectation _ _ (one_utility m (nv_name v)) (one_utility n (nv_name v)) (re_one_utility _)). auto.
Qed.
Lemma re_displayed ig ev d : displayed n ig ev d -> displayed m ig ev d.
Proof.
  intros H x. rewrite (H x). pose proof (re_named _ _ Hs x) as Hx. destruct (var_named (n_vars n) x), (var_named (n_vars m) x); try contradiction; auto.
  simpl. rewrite (re_shown ig ev _ _ Hx). auto.
Qed.
Lemma re_observations ev : valid_observations n ev -> valid_observations m ev.
Proof.
  intros [H1 H2]. split; auto. intros x o Hin. destruct (H2 x o Hin) as (v & Hv & Ht & Ho). pose proof (re_named _ _ Hs x) as Hx. rewrite Hv in Hx.
  destruct (var_named (n_vars m) x) as [w|]; [|contradiction]. exists w. destruct Hx as (_ & E2 & E3 & _). rewrite E2, E3. auto.
Qed.

Lemma re_named_some x v : var_named (n_vars n) x = Some v -> exists w, var_named (n_vars m) x = Some w /\ same_node v w.
Proof. intros H. pose proof (re_named _ _ Hs x) as Hx. rewrite H in Hx. destruct (var_named (n_vars m) x) as [w|]; [|contradiction]. eauto. Qed.
Lemma re_nth_some k v : nth_error (n_vars n) k = Some v -> exists w, nth_error (n_vars m) k = Some w /\ same_node v w.
Proof. intros H. pose proof (re_nth _ _ Hs k) as Hx. rewrite H in Hx. destruct (nth_error (n_vars m) k) as [w|]; [|contradiction]. eauto. Qed.

Lemma re_wf : wf_network n -> wf_network m.
Proof.
  intros [H1 H2 H3 H4 H5 H6 H7 H8 H9]. constructor.
  - rewrite (re_names _ _ Hs). auto.
  - intros v Hv. destruct (re_in _ _ Hs v Hv) as (w & Hw & E & _). rewrite E. auto.
  - unfold zlen in *. rewrite (re_len _ _ Hs). auto.
  - intros v Hv. destruct (re_in _ _ Hs v Hv) as (w & Hw & _ & _ & E & _). rewrite E. auto.
  - intros v Hv. destruct (re_in _ _ Hs v Hv) as (w & Hw & _ & _ & E & _). rewrite E. auto.
  - rewrite (rl_factors n m Hr). intros f Hf Ht. rewrite re_is_total in Ht. destruct (H6 f Hf Ht) as [T1 T2 T3 T4 T5]. constructor; auto.
    + destruct T1 as (v & Hv). destruct (re_named_some _ _ Hv) as (w & Hw & _). eauto.
    + intros g Hg. rewrite re_is_total. destruct (T2 g Hg) as (Tg & v & Hv). split; auto. destruct (re_named_some _ _ Hv) as (w & Hw & _). eauto.
    + rewrite (re_kind _ _ Hs), (re_size _ _ Hs). auto.
    + intros g Hg. rewrite (re_kind _ _ Hs). auto.
  - unfold wf_total. rewrite (rl_tui n m Hr), (rl_factors n m Hr). destruct H7 as [E|(i & v & k & f & l & Ei & Hv & Ht & Hk & Hf & Htab & Hlen & Hall)]; [left; auto|right].
    destruct (re_nth_some _ _ Hv) as (w & Hw & _ & W2 & _ & W4). exists i, w, k, f, l. do 2 (split; auto). split; [congruence|]. split; [congruence|]. do 3 (split; auto).
    intros j u Hu Hj Hut. pose proof (re_nth _ _ Hs j) as Hx. rewrite Hu in Hx. destruct (nth_error (n_vars n) j) as [u'|] eqn:Eu; [|contradiction].
    destruct Hx as (E1 & E2 & _). rewrite E1. apply (Hall j u' Eu Hj). congruence.
  - rewrite (rl_policies n m Hr). auto.
  - rewrite (rl_policies n m Hr). intros x p Hp. destruct (H9 x p Hp) as [P1 P2 P3 P4 P5]. constructor; auto.
    + rewrite (re_kind _ _ Hs). auto.
    + intros v Hv. destruct (P4 v Hv) as (i & nv & A1 & A2 & A3 & A4 & A5 & A6). destruct (re_nth_some _ _ A1) as (w & Hw & W1 & W2 & W3 & W4).
      exists i, w. rewrite W1, W2, W3, (rl_tui n m Hr), (rl_policies n m Hr). repeat split; auto.
    + destruct P5 as (i & nv & v & A1 & A2 & A3 & A4). destruct (re_nth_some _ _ A1) as (w & Hw & W1 & _). exists i, w, v. repeat split; auto. congruence.
Qed.
Lemma re_displayable : displayable n -> displayable m.
Proof.
  intros [H1 H2 H3 H4 H5 H6 H7]. constructor.
  - apply re_wf; auto.
  - intros v Hv Ht. destruct (re_in _ _ Hs v Hv) as (w & Hw & E1 & E2 & _). rewrite E1, (rl_factors n m Hr). apply H2; congruence.
  - destruct H3 as [N1 N2]. split.
    + intros f s Hf. rewrite re_chance in Hf. rewrite (re_entry _ _ Hs). auto.
    + rewrite (rl_policies n m Hr). intros x p s Hp. rewrite (re_policy _ _ Hs). eauto.
  - intros v Hv Ht. destruct (re_in _ _ Hs v Hv) as (w & Hw & E1 & E2 & _). rewrite E1, (rl_policies n m Hr). apply H4; congruence.
  - intros v Hv Ht Hto. destruct (re_in _ _ Hs v Hv) as (w & Hw & E1 & E2 & E3 & _). rewrite E3, E1, (rl_factors n m Hr). rewrite re_is_total, E1 in Hto. apply H5; congruence.
  - rewrite re_total_factor. intros f g Hf Hg. rewrite re_is_total, (re_kind _ _ Hs). eauto.
  - rewrite re_total_factor. auto.
Qed.
Lemma re_used : n_names m = n_names n -> used_before n -> used_before m.
Proof.
  intros En H x v Hv Ht. rewrite En. pose proof (re_named _ _ Hs x) as Hx. rewrite Hv in Hx. destruct (var_named (n_vars n) x) as [w|] eqn:Ew; [|contradiction].
  destruct Hx as (_ & _ & E3 & _). rewrite E3. apply H; auto. rewrite <- re_is_total. auto.
Qed.
End Nets.
