(** Property C116: soft evidence (network.go: SolveQuery). The vocabulary is in SpecNet.v,
    SpecAnswers.v and SpecSoft.v. *)
From Coq Require Import ZArith List Bool String Lia Permutation QArith Qcanon.
From Verif Require Import Num GoBase VarModel SpecFactor XnumFacts VEModel SpecVE NetModel SpecNet NetNew NetCheck NetSums NetQuery NetChange NetReorder NetBayes SpecAnswers SpecSoft NetSoft
  Props_VE Props_Net Props_Graph.
Import ListNotations.
Open Scope string_scope.
Open Scope list_scope.
Open Scope Z_scope.

(** ** C116: an observed report multiplies the probabilities by its likelihoods *)

(** A further variable with the only parent [x] is added, and its outcome [o] is observed: the
    probability of each outcome of [x] is multiplied with the likelihood of [o], and all are divided
    by the sum. If the report is impossible, the answer is not-a-number. *)
Theorem C116_report : forall x v f n n' sc sc' ev i o, with_report x v f n n' -> wf_network n -> wf_network n' -> complete n -> nonnegative n' ->
  valid_observations n ev -> mass n (fun _ => false) (agrees (n_vars n) ev) <> 0%Qc -> askable n (fun _ => false) ev x -> nth_error (nv_outcomes v) i = Some o ->
  let m := num_outcomes (n_vars n) x in
  exists p : nat -> Qc, let total := qsum (map (fun k => p k * likelihood n' f i k)%Qc (seq 0 m)) in
    (forall k, (k < m)%nat -> answered (net_solve_query sc n ev [x] false) x k (p k)) /\
    (total <> 0%Qc -> forall k, (k < m)%nat -> answered (net_solve_query sc' n' (ev ++ [(nv_name v, o)]) [x] false) x k (p k * likelihood n' f i k / total)%Qc) /\
    (total = 0%Qc -> exists n1 res fac, net_solve_query sc' n' (ev ++ [(nv_name v, o)]) [x] false = (n1, Ok (res, fac)) /\ sget_map res x = Some (repeat NaN m)).
Proof.
  intros x v f n n' sc sc' ev i o Hwr Hwf Hwf' Hco Hnn' Hv Hm Hask Hi m.
  pose proof (leaf_complete n n' v f (wr_vars _ _ _ _ _ Hwr) (wr_factors _ _ _ _ _ Hwr) (wr_for _ _ _ _ _ Hwr) Hco) as Hco'.
  pose proof (report_valid x v f n n' Hwr Hwf' ev i o Hv Hi) as Hv'. pose proof (report_known x v f n n' Hwr Hwf Hwf' ev i o Hv Hi Hm Hask) as HK.
  assert (Hask' : forall q, In q [x] -> askable n' (fun _ => false) (ev ++ [(nv_name v, o)]) q) by (intros q [<-|[]]; apply (report_askable x v f n n'); auto).
  assert (Ho : num_outcomes (n_vars n') x = m) by (apply (leaf_outcomes n n' v Hwf' (wr_vars _ _ _ _ _ Hwr)); apply Hwr).
  exists (posterior n (fun _ => false) ev x). cbn zeta. fold m in HK. split; [|split].
  - intros k Hk. apply query_answered; auto; [intros q [<-|[]]; auto|left; auto].
  - intros Ht k Hk. change (qsum _) with (report_total x f n n' ev i). rewrite <- (report_answer x v f n n' Hwr Hwf Hwf' ev i o Hv Hi Hm Hask k). apply query_answered; auto; [|left; auto|rewrite Ho; auto].
    rewrite HK. intros Hz. destruct (Qcmult_integral _ _ Hz); auto.
  - intros Ht. destruct (query_exact n' Hwf' sc' false (ev ++ [(nv_name v, o)]) [x] Hco' Hv' Hask') as (n1 & res & fac & E & Hs).
    destruct (proj1 (Hs x) (or_introl eq_refl)) as (l & El & _ & D). exists n1, res, fac. split; auto. rewrite El, D, Ho; auto.
    change (mass n' (fun _ => false) (agrees (n_vars n') (ev ++ [(nv_name v, o)])) = 0%Qc). rewrite HK. unfold report_total. fold m. rewrite Ht. ring.
Qed.

(** The other variables follow: their new probabilities are those for the outcomes of [x], weighted
    with the new probabilities of [x]. *)
Theorem C116_others : forall x v f n n' sc sc' sc'' ev i o y j vx, with_report x v f n n' -> wf_network n -> wf_network n' -> complete n -> nonnegative n -> nonnegative n' ->
  valid_observations n ev -> mass n (fun _ => false) (agrees (n_vars n) ev) <> 0%Qc -> askable n (fun _ => false) ev x -> nth_error (nv_outcomes v) i = Some o ->
  var_named (n_vars n) x = Some vx -> askable n (fun _ => false) ev y -> y <> x -> (j < num_outcomes (n_vars n) y)%nat ->
  mass n' (fun _ => false) (agrees (n_vars n') (ev ++ [(nv_name v, o)])) <> 0%Qc ->
  exists p' r : nat -> Qc,
    (forall k, (k < List.length (nv_outcomes vx))%nat -> answered (net_solve_query sc' n' (ev ++ [(nv_name v, o)]) [x; y] false) x k (p' k)) /\
    (forall k ox, nth_error (nv_outcomes vx) k = Some ox -> p' k <> 0%Qc -> answered (net_solve_query (sc'' k) n (ev ++ [(x, ox)]) [y] false) y j (r k)) /\
    answered (net_solve_query sc n' (ev ++ [(nv_name v, o)]) [x; y] false) y j (qsum (map (fun k => p' k * r k)%Qc (seq 0 (List.length (nv_outcomes vx))))).
Proof.
  intros x v f n n' sc sc' sc'' ev i o y j vx Hwr Hwf Hwf' Hco Hnn Hnn' Hv Hm Hask Hi Hx Hay Hyx Hj Hm'.
  pose proof (leaf_complete n n' v f (wr_vars _ _ _ _ _ Hwr) (wr_factors _ _ _ _ _ Hwr) (wr_for _ _ _ _ _ Hwr) Hco) as Hco'.
  pose proof (report_valid x v f n n' Hwr Hwf' ev i o Hv Hi) as Hv'. pose proof (report_known x v f n n' Hwr Hwf Hwf' ev i o Hv Hi Hm Hask) as HK.
  assert (Hask' : forall q, In q [x; y] -> askable n' (fun _ => false) (ev ++ [(nv_name v, o)]) q) by (intros q [<-|[<-|[]]]; apply (report_askable x v f n n'); auto).
  assert (Hy : In y (map nv_name (n_vars n))). { destruct Hay as ((w & Hw & _) & _). apply (named_in n _ w). auto. }
  assert (Ht : report_total x f n n' ev i <> 0%Qc) by (intros Hz; apply Hm'; rewrite HK, Hz; ring).
  assert (Hn : num_outcomes (n_vars n) x = List.length (nv_outcomes vx)) by (unfold num_outcomes; rewrite Hx; auto).
  exists (fun k => posterior n (fun _ => false) ev x k * likelihood n' f i k / report_total x f n n' ev i)%Qc, (split_by x n ev y j). split; [|split].
  - intros k Hk. rewrite <- (report_answer x v f n n' Hwr Hwf Hwf' ev i o Hv Hi Hm Hask k). apply query_answered; auto; [left; auto|].
    rewrite (leaf_outcomes n n' v Hwf' (wr_vars _ _ _ _ _ Hwr)) by apply Hwr. lia.
  - intros k ox Hk Hp. unfold split_by. rewrite <- (posterior_more n Hwf ev x ox vx k y j) by auto.
    assert (Hpk : posterior n (fun _ => false) ev x k <> 0%Qc) by (intros Hz; apply Hp; rewrite Hz; unfold Qcdiv; ring).
    apply query_answered; auto; [|intros q [<-|[]]; apply more_askable; auto| |left; auto].
    + destruct Hask as ((w & Hw & Hu) & _ & Hne). apply (more_observations n ev x ox vx k); auto. congruence.
    + rewrite (mass_more n Hwf ev x ox vx k) by auto. apply (div_nonzero _ _ Hm Hpk).
  - rewrite <- Hn. rewrite <- (report_other x v f n n' Hwr Hwf Hwf' Hnn ev i o Hv Hi Hm Hask y j Hy Ht). apply query_answered; auto; [right; left; auto|].
    rewrite (leaf_outcomes n n' v Hwf' (wr_vars _ _ _ _ _ Hwr)) by auto. auto.
Qed.

(** A neighbour says that the grass is wet; they say so three times as often if it is. *)
Definition report_var0 := node Chance "neighbour" ["says wet"; "says dry"].
Definition report_factor := cpt "neighbour" ["grass"] [3#4; 1#4; 1#4; 3#4].
Definition told : network xnum := built (net_new "told" "" (report_var0 :: wet_vars) (report_factor :: wet_factors)).
Definition wet_net : network xnum := built (net_new "wet" "" wet_vars wet_factors).
Lemma told_report : with_report "grass" report_var0 report_factor wet_net told.
Proof.
  constructor; try reflexivity.
  - exists (report_var0 :: n_vars wet_net). split; [apply Permutation_refl|]. repeat constructor.
  - exists (report_factor :: n_factors wet_net). split; [apply Permutation_refl|]. repeat constructor.
  - vm_compute. tauto.
Qed.
Example C116_hypotheses : let ev := [("cloudy", "yes")] in with_report "grass" report_var0 report_factor wet_net told /\ wf_network wet_net /\ wf_network told /\ complete wet_net /\ nonnegative wet_net /\ nonnegative told /\
  valid_observations wet_net ev /\ mass wet_net (fun _ => false) (agrees (n_vars wet_net) ev) <> 0%Qc /\ askable wet_net (fun _ => false) ev "grass" /\ askable wet_net (fun _ => false) ev "rain" /\
  mass told (fun _ => false) (agrees (n_vars told) (ev ++ [("neighbour", "says wet")])) <> 0%Qc.
Proof.
  cbn zeta. split; [exact told_report|]. do 2 (split; [apply network_b_sound; vm_compute; reflexivity|]). split; [apply complete_b_sound; vm_compute; reflexivity|]. do 2 (split; [apply nonnegative_b_sound; vm_compute; reflexivity|]).
  split; [apply observations_b_sound; vm_compute; reflexivity|]. split; [apply qeq_false; vm_compute; reflexivity|]. do 2 (split; [apply askable_b_sound; vm_compute; reflexivity|]). apply qeq_false. vm_compute. reflexivity.
Qed.
Example C116_example : shown_answer (net_solve_query sched_id wet_net [("cloudy", "yes")] ["grass"] false) = Some [("grass", [SFin (1863#2500); SFin (637#2500)])] /\
  shown_answer (net_solve_query sched_id told [("cloudy", "yes"); ("neighbour", "says wet")] ["grass"] false) = Some [("grass", [SFin (5589#6226); SFin (637#6226)])].
Proof. split; vm_compute; reflexivity. Qed.

Print Assumptions C116_report.
Print Assumptions C116_others.
