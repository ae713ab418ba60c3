(** What the terminal application shows for each node. *)
From Coq Require Import ZArith List Bool String Lia QArith Qcanon Lqa.
From Verif Require Import Num GoBase VarModel GoFacts Tuples SpecFactor XnumFacts VEModel SpecVE NetModel SpecNet NetNew NetVars NetFactors NetVE NetQuery NetUtil NetMass NetExtra
  SpecNetPolicy CliModel DocModel TrainFacts TuiModel SpecTui SpecApp TuiSolve TuiMove TuiGrid TuiDraw TuiCanvas TuiApp TuiTable TuiEvents TuiSession TuiStart TuiTwice TuiMore TuiPicture.
Import ListNotations.
Open Scope string_scope.
Open Scope list_scope.
Open Scope Z_scope.

(** ** Expectations are between the least and the greatest value *)
Lemma expectation_small (n : network xnum) ign ev F : nonnegative n -> (forall s, In s (worlds_of n) -> small (F s)) ->
  forall q, shown_expectation n ign ev F = Fin q -> small q.
Proof.
  intros Hnn HF q. unfold shown_expectation. cbv zeta. set (m := mass n ign _). destruct (qeq m 0) eqn:Em; [discriminate|]. intros E. assert (Eq : (sum_over n (fun s => joint n ign s * F s) (agrees (n_vars n) ev) / m)%Qc = q) by congruence. subst q. clear E.
  assert (Hm : m <> 0%Qc) by (intros E0; apply qeq_spec in E0; congruence). assert (Hm0 : (0 <= m)%Qc) by (apply (mass_nonneg n); auto).
  set (B := Q2Qc 9999999). assert (Hup : (sum_over n (fun s => joint n ign s * F s) (agrees (n_vars n) ev) <= B * m)%Qc).
  { unfold sum_over, m, mass. rewrite <- qsum_scale. apply VEShadow.qsum_le. intros s Hs. apply filter_In in Hs. destruct (HF s (proj1 Hs)) as [_ H2]. rewrite Qcmult_comm. apply Qcmult_le_compat_r; [exact H2|]. apply (joint_nonneg n); auto. }
  assert (Hlo : ((- B) * m <= sum_over n (fun s => joint n ign s * F s) (agrees (n_vars n) ev))%Qc).
  { unfold sum_over, m, mass. rewrite <- qsum_scale. apply VEShadow.qsum_le. intros s Hs. apply filter_In in Hs. destruct (HF s (proj1 Hs)) as [H1 _]. rewrite (Qcmult_comm (joint n ign s)). apply Qcmult_le_compat_r; [exact H1|]. apply (joint_nonneg n); auto. }
  unfold small. fold B. set (T := sum_over _ _ _) in *. clearbody T B. clearbody m.
  assert (Hi : (0 <= / m)%Qc). { replace (/ m)%Qc with (1 / m)%Qc by (field; auto). apply Qc_div_nonneg; auto. discriminate. }
  unfold Qcdiv. split.
  - replace (- B)%Qc with ((- B) * m * / m)%Qc by (field; auto). apply Qcmult_le_compat_r; auto.
  - replace B with (B * m * / m)%Qc by (field; auto). apply Qcmult_le_compat_r; auto.
Qed.
Lemma expectation_times (n : network xnum) ign ev F w q q' : shown_expectation n ign ev F = Fin q -> shown_expectation n ign ev (fun s => F s * w)%Qc = Fin q' -> q' = (q * w)%Qc.
Proof.
  unfold shown_expectation. cbv zeta. destruct (qeq _ 0) eqn:Em; [discriminate|]. intros E1 E2. assert (q = (sum_over n (fun s => joint n ign s * F s) (agrees (n_vars n) ev) / mass n ign (agrees (n_vars n) ev))%Qc) by congruence.
  assert (q' = (sum_over n (fun s => joint n ign s * (F s * w)) (agrees (n_vars n) ev) / mass n ign (agrees (n_vars n) ev))%Qc) by congruence. subst. unfold sum_over.
  rewrite (qsum_ext _ (fun s => w * (joint n ign s * F s))%Qc) by (intros; ring). rewrite qsum_scale. assert (Hm : mass n ign (agrees (n_vars n) ev) <> 0%Qc) by (intros E0; apply qeq_spec in E0; congruence). field. auto.
Qed.
Lemma small_modest (n : network xnum) v : nonnegative n -> small_utilities n -> In v (n_vars n) -> wf_network n -> modest n v.
Proof.
  intros Hnn Hs Hv Hwf Hu ig ev Hev. apply Forall_forall. intros p Hp. apply small_short. intros q ->.
  assert (Ht : nv_type v = Utility) by (unfold is_utility in Hu; destruct (nv_type v); auto; discriminate).
  unfold shown_numbers in Hp. destruct (sget_map ev (nv_name v)) as [o|] eqn:Eo.
  { exfalso. apply (mget_In String.eqb String.eqb_eq) in Eo. destruct (proj2 Hev _ _ Eo) as (w & Hw & Htw & _). assert (w = v) by (rewrite (proj2 (var_named_in n Hwf (nv_name v) v)) in Hw by auto; congruence). subst. congruence. }
  destruct (is_total n (nv_name v)).
  - destruct (total_factor n) as [f|] eqn:Ef; [|destruct Hp]. apply in_app_or in Hp. destruct Hp as [Hp|[Hp|[]]].
    + apply in_map_iff in Hp. destruct Hp as ([g w] & E & Hin). destruct (shown_expectation n (ignored_by ig ev) ev (one_utility n g)) as [e| | |] eqn:Ee.
      * destruct w as [w| | |]; try (cbn [nmul xnum_ops xmul] in E; unfold inf_times in E; destruct (qeq e 0); [discriminate E|]; destruct (Bool.eqb _ _); discriminate E); try discriminate E.
        assert (Eq : q = (e * w)%Qc) by (cbn in E; congruence). subst q.
        destruct (shown_expectation n (ignored_by ig ev) ev (fun s => one_utility n g s * w)%Qc) as [e'| | |] eqn:Ee'; try (unfold shown_expectation in Ee, Ee'; cbv zeta in *; destruct (qeq _ 0); discriminate).
        rewrite <- (expectation_times n _ ev _ w e e' Ee Ee'). eapply expectation_small; [exact Hnn| |exact Ee']. intros s Hsw. destruct (Hs s Hsw) as [_ H]. apply (proj2 (H g) f w); auto.
      * unfold shown_expectation in Ee. cbv zeta in Ee. destruct (qeq _ 0); discriminate.
      * unfold shown_expectation in Ee. cbv zeta in Ee. destruct (qeq _ 0); discriminate.
      * cbn in E. discriminate.
    + eapply expectation_small; [exact Hnn| |exact Hp]. intros s Hsw. apply Hs; auto.
  - rewrite Ht in Hp. destruct Hp as [Hp|[Hp|[]]]; (eapply expectation_small; [exact Hnn| |exact Hp]); intros s Hsw; destruct (Hs s Hsw) as [H1 H2]; [apply H2|exact H1].
Qed.

(** ** The picture of a node in the states reached *)
Section Shown.
Variables (n : network xnum) (ev : list (string * string)).
Hypothesis (Hso : solvable n) (Hsw : showable n) (Hev : valid_observations n ev).
Variables (other_digit : Z -> bool) (scp : sched).

Lemma small_solved n' tables : started n n' tables -> small_utilities n -> small_utilities n'.
Proof.
  intros Hst Hs. pose proof (sr_vars _ _ _ Hst) as Ev. pose proof (sr_factors _ _ _ Hst) as Ef. pose proof (sr_tui _ _ _ Hst) as Et. unfold small_utilities, worlds_of, one_utility, utility_of, net_weight, total_factor, utility_tables, is_total in *. rewrite Ev, Ef, Et. exact Hs.
Qed.
Theorem node_shown a i v t : reached other_digit scp n ev a -> small_utilities n -> nth_error (n_vars n) i = Some v -> nth_error (a_nodes a) i = Some t ->
  exists n' tables, net_solve_policies scp n true = (n', Ok tables) /\
    b_w (t_bounds t) = box_width v /\ b_h (t_bounds t) = box_height v /\
    forall y x, 0 <= y < box_height v -> 0 <= x < box_width v ->
      px (t_runes t) y x = Ok (node_char v (shown_numbers n' (a_ignore a) (a_evidence a) v) (Z.of_nat i =? a_selected a) (a_state a) (has_key (a_evidence a) (nv_name v)) y x).
Proof.
  intros Hr Hs Hv Ht. destruct (reached_ok n ev Hso Hsw Hev other_digit scp a Hr) as (n' & tables & [R1 R2 R3 R4 R5 R6 R7 R8]). exists n', tables. split; auto.
  assert (Etv : t_var t = v). { assert (H : nth_error (map t_var (a_nodes a)) i = Some (t_var t)) by (rewrite nth_error_map, Ht; auto). rewrite R7 in H. congruence. }
  assert (Hin : In v (n_vars n')) by (rewrite (sr_vars _ _ _ R2); eapply nth_error_In; eauto).
  assert (Hno : node_of n' v t). { pose proof (co_nodes _ _ (ao_core _ _ R6)) as F. rewrite (sr_vars _ _ _ R2) in F. clear - F Hv Ht. revert i Hv Ht. induction F; intros [|i] Hv Ht; cbn in *; try discriminate; [congruence|eauto]. }
  pose proof (nd_ok _ _ _ Hno) as Hok. destruct (box_size v) as [Bw Bh]. rewrite (no_w _ Hok), (no_h _ Hok), Etv. split; auto. split; auto.
  assert (Hm : modest n' (t_var t)) by (rewrite Etv; apply small_modest; [apply (sr_nonneg _ _ _ R2)|eapply small_solved; eauto|auto|apply (sr_wf _ _ _ R2)]).
  destruct (ao_current _ _ R6 i t Ht Hm) as (u & u' & Eu & Er & Ec). rewrite Ec. rewrite Etv in *. unfold t_name in Er. rewrite Etv in Er.
  pose proof (co_evidence _ _ (ao_core _ _ R6)) as Hea.
  refine (proj2 (node_chars v (t_factor t) _ _ _ _ u u' _ _ _ _ Eu Er)).
  - pose proof (nd_color _ _ _ Hno) as Hc. rewrite Etv in Hc. auto.
  - apply shown_fits; auto.
  - intros Hu. unfold zlen. rewrite (shown_count n' R3 (a_ignore a) (a_evidence a) Hea v Hin). unfold count_of. destruct (is_total n' (nv_name v)) eqn:Et.
    + apply (total_utility n' R3) in Et; auto. unfold is_utility in Hu. rewrite Et in Hu. discriminate.
    + unfold is_utility in Hu. destruct (nv_type v); auto. discriminate.
  - intros Hu. apply Hm; auto.
Qed.
End Shown.
