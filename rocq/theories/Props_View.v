(** Properties C113, C114 and C115: networks that leave out details (network.go: SolveQuery).
    The vocabulary is in SpecNet.v and SpecView.v. *)
From Coq Require Import ZArith List Bool String Lia Permutation QArith Qcanon.
From Verif Require Import Num GoBase VarModel SpecFactor XnumFacts VEModel SpecVE NetModel SpecNet NetNew NetCheck NetSums NetQuery NetChange SpecView NetView
  Props_VE Props_Net Props_Graph.
Import ListNotations.
Open Scope string_scope.
Open Scope list_scope.
Open Scope Z_scope.

(** ** C113: a summary of a network *)

(** If the joint weights of [n'] are the sums of those of [n], over the variables that are left out
    and the outcomes that are put together, the probability of an outcome in [n'] is the sum of
    the probabilities of its outcomes in [n]. Evidence must be on outcomes that are alone. *)
Theorem C113_summary : forall h n n' sc sc' ig ev ev' query, summary h n n' -> wf_network n -> wf_network n' -> complete n -> complete n' -> nonnegative n -> nonnegative n' ->
  valid_observations n ev -> valid_observations n' ev' -> Forall2 (same_observation h n n') ev ev' ->
  (forall q, In q query -> askable n (ignored_by ig ev) ev q /\ askable n' (ignored_by ig ev') ev' q) ->
  exists n1 res f n1' res' f', net_solve_query sc n ev query ig = (n1, Ok (res, f)) /\ net_solve_query sc' n' ev' query ig = (n1', Ok (res', f')) /\
    forall q, let m := num_outcomes (n_vars n) q in let m' := num_outcomes (n_vars n') q in
      (In q query ->
        (exists p : nat -> Qc, sget_map res q = Some (map (fun k => Fin (p k)) (seq 0 m)) /\ sget_map res' q = Some (map (fun j => Fin (group_sum (h q) p m j)) (seq 0 m'))) \/
        (sget_map res q = Some (repeat NaN m) /\ sget_map res' q = Some (repeat NaN m'))) /\
      (~ In q query -> sget_map res q = None /\ sget_map res' q = None).
Proof.
  intros h n n' sc sc' ig ev ev' query Hsy Hwf Hwf' Hco Hco' Hnn Hnn' Hv Hv' HF Hask.
  destruct (query_exact n Hwf sc ig ev query Hco Hv (fun q Hq => proj1 (Hask q Hq))) as (n1 & res & f & E & Hs).
  destruct (query_exact n' Hwf' sc' ig ev' query Hco' Hv' (fun q Hq => proj2 (Hask q Hq))) as (n1' & res' & f' & E' & Hs').
  exists n1, res, f, n1', res', f'. split; auto. split; auto. intros q m m'. split.
  2:{ intros Hq. split; [apply (proj2 (Hs q) Hq)|apply (proj2 (Hs' q) Hq)]. }
  intros Hq. destruct (proj1 (Hs q) Hq) as (l & El & D1 & D2). destruct (proj1 (Hs' q) Hq) as (l' & El' & D1' & D2'). rewrite El, El'.
  pose proof (ignored_same h n n' ev ev' ig HF) as Hig. rewrite (mass_ign n' (ignored_by ig ev)) in D1', D2' by auto.
  destruct (Qc_eq_dec (mass n (ignored_by ig ev) (agrees (n_vars n) ev)) 0%Qc) as [Z|Z].
  - right. rewrite D2, D2'; auto. apply (summary_impossible h n n' Hsy Hwf Hwf' ev ev'); auto.
  - left. exists (posterior n (ignored_by ig ev) ev q). rewrite D1, D1'; auto.
    + split; auto. f_equal. apply map_ext. intros k. f_equal. rewrite (posterior_ign n' (ignored_by ig ev)) by auto. apply summary_posterior; auto. apply (proj2 (Hask q Hq)).
    + intros Z'. apply Z. apply (summary_impossible h n n' Hsy Hwf Hwf' ev ev'); auto.
Qed.

(** ** C114: a node that is summed into its child *)

Lemma group_sum_id p m j : (j < m)%nat -> group_sum (fun k => k) p m j = p j.
Proof. intros H. unfold group_sum. rewrite qsum_filter. apply (qsum_pick p). auto. Qed.
Theorem C114_joint : forall x y n n', absorbed x y n n' -> wf_network n -> wf_network n' ->
  (forall f s, In f (chance_factors n) -> proper_state n s -> row_sum (n_vars n) f s <> 0%Qc) -> summary (fun _ k => k) n n'.
Proof. exact absorbed_summary. Qed.
(** A chance node with a single child can be left out: if the table of the child is replaced by the
    sum over the outcomes of the node, all queries about the other nodes have the same answers. *)
Theorem C114_answers : forall x y n n' sc sc' ig ev query, absorbed x y n n' -> wf_network n -> wf_network n' -> complete n -> complete n' -> nonnegative n -> nonnegative n' ->
  (forall f s, In f (chance_factors n) -> proper_state n s -> row_sum (n_vars n) f s <> 0%Qc) ->
  valid_observations n' ev -> (forall q, In q query -> askable n (ignored_by ig ev) ev q /\ askable n' (ignored_by ig ev) ev q) ->
  exists n1 res f n1' res' f', net_solve_query sc n ev query ig = (n1, Ok (res, f)) /\ net_solve_query sc' n' ev query ig = (n1', Ok (res', f')) /\
    forall q, (In q query -> sget_map res q <> None) /\ sget_map res' q = sget_map res q.
Proof.
  intros x y n n' sc sc' ig ev query Hab Hwf Hwf' Hco Hco' Hnn Hnn' Hrows Hv' Hask.
  destruct (ab_sig x y n n' Hab Hwf) as (vx & l & _ & _ & _ & _ & _ & Hsig & Nx).
  assert (Hold : forall z v', var_named (n_vars n') z = Some v' -> exists v, var_named (n_vars n) z = Some v /\ nv_type v = nv_type v' /\ nv_outcomes v = nv_outcomes v').
  { intros z v' E. assert (Hz : z <> x) by congruence. apply (sig_named (n_vars n') (n_vars n)); auto. symmetry. auto. }
  assert (Hv : valid_observations n ev).
  { destruct Hv' as [H1 H2]. split; auto. intros z o Hz. destruct (H2 z o Hz) as (v' & E & T & O). destruct (Hold z v' E) as (v & E1 & T1 & O1). exists v. split; auto. rewrite T1, O1. auto. }
  assert (HF : Forall2 (same_observation (fun _ k => k) n n') ev ev).
  { assert (G : forall l0, incl l0 ev -> Forall2 (same_observation (fun _ k => k) n n') l0 l0).
    { induction l0 as [|[z o] l0 IH]; intros Hl; constructor; [|apply IH; intros a Ha; apply Hl; simpl; auto].
      destruct (proj2 Hv' z o (Hl _ (or_introl eq_refl))) as (v' & E & T & O). destruct (Hold z v' E) as (v & E1 & T1 & O1). apply In_nth_error in O. destruct O as (i & Ei).
      split; auto. exists v, v', i. cbn [fst snd]. rewrite O1. auto. }
    apply G. apply incl_refl. }
  destruct (C113_summary (fun _ k => k) n n' sc sc' ig ev ev query (C114_joint x y n n' Hab Hwf Hwf' Hrows) Hwf Hwf' Hco Hco' Hnn Hnn' Hv Hv' HF Hask) as (n1 & res & f & n1' & res' & f' & E & E' & H).
  exists n1, res, f, n1', res', f'. split; auto. split; auto. intros q. destruct (H q) as [H1 H2]. destruct (in_dec string_dec q query) as [Hq|Hq]; [|destruct (H2 Hq) as [-> ->]; tauto].
  assert (Ho : num_outcomes (n_vars n') q = num_outcomes (n_vars n) q).
  { destruct (proj2 (Hask q Hq)) as ((v' & Ev' & _) & _). destruct (Hold q v' Ev') as (v & E1 & _ & O1). unfold num_outcomes. rewrite E1, Ev', O1. auto. }
  rewrite Ho in H1. destruct (H1 Hq) as [(p & -> & ->)|[-> ->]]; split; try discriminate; auto. f_equal. apply map_ext_in. intros k Hk. apply in_seq in Hk. rewrite group_sum_id by lia. auto.
Qed.

(** Wet grass is left out, slippery ground depends on sprinkler and rain. *)
Definition dry_slip : network xnum := built (net_new "slip" "" (slip_var :: firstn 3 wet_vars) (cpt "slippery" ["sprinkler"; "rain"] [693#1000; 307#1000; 63#100; 37#100; 63#100; 37#100; 0#1; 1#1] :: firstn 3 wet_factors)).
Definition slip_state (a b c d e : nat) : nstate := fun z => if String.eqb z "cloudy" then a else if String.eqb z "sprinkler" then b else if String.eqb z "rain" then c else if String.eqb z "grass" then d else e.
Lemma dry_slip_absorbed : absorbed "grass" "slippery" slip dry_slip.
Proof.
  constructor; [discriminate|split; reflexivity| | |reflexivity|reflexivity].
  - exists (nth 4 (n_vars slip) slip_var), (firstn 4 (n_vars slip)). split; [reflexivity|]. split; [apply Permutation_sym, (Permutation_cons_append (firstn 4 (n_vars slip)))|].
    repeat constructor.
  - exists (nth 4 (n_factors slip) slip_factor), (nth 0 (n_factors slip) slip_factor), (nth 0 (n_factors dry_slip) slip_factor), (firstn 3 (tl (n_factors slip))), (tl (n_factors dry_slip)).
    split; [change (n_factors slip) with (firstn 4 (n_factors slip) ++ [nth 4 (n_factors slip) slip_factor]) at 1; apply Permutation_sym, (Permutation_cons_append (firstn 4 (n_factors slip)))|].
    split; [apply Permutation_refl|]. split; [repeat constructor|]. split; [reflexivity|]. split; [reflexivity|]. split; [reflexivity|].
    split; [vm_compute; intuition discriminate|]. split; [intros f [<-|[<-|[<-|[]]]]; vm_compute; intuition discriminate|]. split; [vm_compute; intuition discriminate|].
    intros s Hs.
    assert (L1 : (s "sprinkler" < 2)%nat) by (apply (Hs (nth 2 (n_vars slip) slip_var)); simpl; auto). assert (L2 : (s "rain" < 2)%nat) by (apply (Hs (nth 3 (n_vars slip) slip_var)); simpl; auto 6).
    assert (L3 : (s "slippery" < 2)%nat) by (apply (Hs (nth 0 (n_vars slip) slip_var)); simpl; auto).
    match goal with |- entry ?v ?g s = qsum (map ?F ?l) => change (entry v g (slip_state 0 (s "sprinkler") (s "rain") 0 (s "slippery")) = qsum (map (fun k =>
      cond_prob (n_vars slip) (nth 4 (n_factors slip) slip_factor) (slip_state 0 (s "sprinkler") (s "rain") k 0) * cond_prob (n_vars slip) (nth 0 (n_factors slip) slip_factor) (slip_state 0 0 0 k (s "slippery")))%Qc l)) end.
    destruct (s "sprinkler") as [|[|]]; destruct (s "rain") as [|[|]]; destruct (s "slippery") as [|[|]]; try lia; apply qeq_spec; vm_compute; reflexivity.
Qed.
Example C114_hypotheses : let ev := [("slippery", "yes")] in absorbed "grass" "slippery" slip dry_slip /\ (wf_network slip /\ wf_network dry_slip) /\ (complete slip /\ complete dry_slip) /\ (nonnegative slip /\ nonnegative dry_slip) /\
  (forall f s, In f (chance_factors slip) -> proper_state slip s -> row_sum (n_vars slip) f s <> 0%Qc) /\ valid_observations dry_slip ev /\
  (forall q, In q ["rain"; "cloudy"] -> askable slip (ignored_by false ev) ev q /\ askable dry_slip (ignored_by false ev) ev q).
Proof.
  cbn zeta. assert (W : wf_network dry_slip) by (apply network_b_sound; vm_compute; reflexivity).
  split; [exact dry_slip_absorbed|]. split; [split; [exact slip_wf|exact W]|]. split; [split; apply complete_b_sound; vm_compute; reflexivity|]. split; [split; apply nonnegative_b_sound; vm_compute; reflexivity|].
  split; [apply (ca_rows _ _ _ slip_causal)|]. split; [apply observations_b_sound; vm_compute; reflexivity|].
  intros q Hq. split; apply askable_b_sound; destruct Hq as [<-|[<-|[]]]; vm_compute; reflexivity.
Qed.
Example C114_example : shown_answer (net_solve_query sched_id slip [("slippery", "yes")] ["rain"] false) = Some [("rain", [SFin (509#719); SFin (210#719)])] /\
  shown_answer (net_solve_query sched_id dry_slip [("slippery", "yes")] ["rain"] false) = Some [("rain", [SFin (509#719); SFin (210#719)])].
Proof. split; vm_compute; reflexivity. Qed.

(** ** C115: outcomes that no other table tells apart *)

Theorem C115_joint : forall x g n n', merged_outcomes x g n n' -> wf_network n -> wf_network n' -> complete n ->
  summary (fun z k => if String.eqb z x then g k else k) n n'.
Proof. exact merged_summary. Qed.
(** If outcomes of a chance variable are put together that all other tables treat alike, the answers
    for all other variables stay, and the probability of a new outcome is the sum of the old ones. *)
Theorem C115_answers : forall x g n n' sc sc' ig ev query, merged_outcomes x g n n' -> wf_network n -> wf_network n' -> complete n -> complete n' -> nonnegative n -> nonnegative n' ->
  valid_observations n ev -> ~ In x (map fst ev) -> (forall q, In q query -> askable n (ignored_by ig ev) ev q /\ askable n' (ignored_by ig ev) ev q) ->
  exists n1 res f n1' res' f', net_solve_query sc n ev query ig = (n1, Ok (res, f)) /\ net_solve_query sc' n' ev query ig = (n1', Ok (res', f')) /\
    (forall q, q <> x -> (In q query -> sget_map res q <> None) /\ sget_map res' q = sget_map res q) /\
    (In x query -> let m := num_outcomes (n_vars n) x in let m' := num_outcomes (n_vars n') x in
       (exists p : nat -> Qc, sget_map res x = Some (map (fun k => Fin (p k)) (seq 0 m)) /\ sget_map res' x = Some (map (fun j => Fin (group_sum g p m j)) (seq 0 m'))) \/
       (sget_map res x = Some (repeat NaN m) /\ sget_map res' x = Some (repeat NaN m'))).
Proof.
  intros x g n n' sc sc' ig ev query Hmo Hwf Hwf' Hco Hco' Hnn Hnn' Hv Hx Hask. set (h := fun (z : string) (k : nat) => if String.eqb z x then g k else k).
  assert (Hnew : forall z v, z <> x -> var_named (n_vars n) z = Some v -> exists v', var_named (n_vars n') z = Some v' /\ nv_type v' = nv_type v /\ nv_outcomes v' = nv_outcomes v).
  { intros z v Hz E. pose proof (mo_find x g n n' Hmo z) as H. rewrite E in H. destruct (var_named (n_vars n') z) as [v'|]; [|tauto]. exists v'. destruct H as (H1 & _ & _ & H4). auto. }
  assert (Hkeys : forall z o, In (z, o) ev -> z <> x) by (intros z o Hz ->; apply Hx; apply in_map_iff; exists (x, o); auto).
  assert (Hv' : valid_observations n' ev).
  { destruct Hv as [H1 H2]. split; auto. intros z o Hz. destruct (H2 z o Hz) as (v & E & T & O). destruct (Hnew z v (Hkeys z o Hz) E) as (v' & E1 & T1 & O1). exists v'. split; auto. rewrite T1, O1. auto. }
  assert (HF : Forall2 (same_observation h n n') ev ev).
  { assert (G : forall l0, incl l0 ev -> Forall2 (same_observation h n n') l0 l0).
    { induction l0 as [|[z o] l0 IH]; intros Hl; constructor; [|apply IH; intros a Ha; apply Hl; simpl; auto].
      destruct (proj2 Hv z o (Hl _ (or_introl eq_refl))) as (v & E & T & O). pose proof (Hkeys z o (Hl _ (or_introl eq_refl))) as Hz. destruct (Hnew z v Hz E) as (v' & E1 & T1 & O1). apply In_nth_error in O. destruct O as (i & Ei).
      split; auto. exists v, v', i. cbn [fst snd]. unfold h. destruct (String.eqb_spec z x) as [|_]; [contradiction|]. rewrite O1. auto 6. }
    apply G. apply incl_refl. }
  destruct (C113_summary h n n' sc sc' ig ev ev query (C115_joint x g n n' Hmo Hwf Hwf' Hco) Hwf Hwf' Hco Hco' Hnn Hnn' Hv Hv' HF Hask) as (n1 & res & f & n1' & res' & f' & E & E' & H).
  exists n1, res, f, n1', res', f'. split; auto. split; auto. split.
  - intros q Hqx. destruct (H q) as [H1 H2]. destruct (in_dec string_dec q query) as [Hq|Hq]; [|destruct (H2 Hq) as [-> ->]; tauto].
    rewrite (mo_counts x g n n' Hmo q Hqx) in H1. unfold h in H1. destruct (String.eqb_spec q x) as [|_]; [contradiction|].
    destruct (H1 Hq) as [(p & -> & ->)|[-> ->]]; split; try discriminate; auto. f_equal. apply map_ext_in. intros k Hk. apply in_seq in Hk. rewrite group_sum_id by lia. auto.
  - intros Hq. pose proof (proj1 (H x) Hq) as H1. unfold h in H1. rewrite String.eqb_refl in H1. exact H1.
Qed.

(** The weather is sunny, cloudy or rainy; the ground only depends on whether it rains. *)
Definition sky_vars := [node Chance "weather" ["sunny"; "cloudy"; "rainy"]; node Chance "ground" ["dry"; "wet"]].
Definition sky : network xnum := built (net_new "sky" "" sky_vars [cpt "weather" [] [1#2; 3#10; 1#5]; cpt "ground" ["weather"] [9#10; 1#10; 9#10; 1#10; 1#10; 9#10]]).
Definition sky2 : network xnum := built (net_new "sky" "" [node Chance "weather" ["fair"; "rainy"]; node Chance "ground" ["dry"; "wet"]] [cpt "weather" [] [4#5; 1#5]; cpt "ground" ["weather"] [9#10; 1#10; 1#10; 9#10]]).
Definition fair_or_rainy (k : nat) : nat := if (k <? 2)%nat then 0%nat else 1%nat.
Definition sky_state (a b : nat) : nstate := fun z => if String.eqb z "weather" then a else b.
Lemma sky_merged : merged_outcomes "weather" fair_or_rainy sky sky2.
Proof.
  constructor; [reflexivity| | | | | |reflexivity|reflexivity].
  - repeat constructor; intros H; exfalso; apply H; reflexivity.
  - intros k Hk. change (k < 3)%nat in Hk. change (fair_or_rainy k < 2)%nat. unfold fair_or_rainy. destruct (k <? 2)%nat; lia.
  - intros j Hj. change (j < 2)%nat in Hj. change (exists k, (k < 3)%nat /\ fair_or_rainy k = j). destruct j as [|[|]]; [exists 0%nat|exists 2%nat|]; try lia; split; try lia; reflexivity.
  - apply string_nodup_b. reflexivity.
  - assert (G : forall s, proper_state sky s -> (s "weather" < 3)%nat /\ (s "ground" < 2)%nat) by (intros s Hs; split; [apply (Hs (nth 0 (n_vars sky) slip_var))|apply (Hs (nth 1 (n_vars sky) slip_var))]; simpl; auto).
    constructor; [|constructor; [|constructor]]; (split; [reflexivity|]; split; [reflexivity|]; intros _ s Hs; destruct (G s Hs) as [L1 L2]).
    + match goal with |- entry ?v ?f' _ = (if ?b then group_sum ?g ?p ?m ?j else _) => change (entry v f' (sky_state (fair_or_rainy (s "weather")) 0) = group_sum g (fun k => entry (n_vars sky) (nth 0 (n_factors sky) slip_factor) (sky_state k 0)) m j) end.
      destruct (s "weather") as [|[|[|]]]; try lia; apply qeq_spec; vm_compute; reflexivity.
    + match goal with |- entry ?v ?f' _ = (if ?b then _ else entry ?w ?f _) => change (entry v f' (sky_state (fair_or_rainy (s "weather")) (s "ground")) = entry w f (sky_state (s "weather") (s "ground"))) end.
      destruct (s "weather") as [|[|[|]]]; destruct (s "ground") as [|[|]]; try lia; apply qeq_spec; vm_compute; reflexivity.
Qed.
Example C115_hypotheses : let ev := [("ground", "wet")] in merged_outcomes "weather" fair_or_rainy sky sky2 /\ (wf_network sky /\ wf_network sky2) /\ (complete sky /\ complete sky2) /\ (nonnegative sky /\ nonnegative sky2) /\
  valid_observations sky ev /\ ~ In "weather" (map fst ev) /\ (forall q, In q ["weather"] -> askable sky (ignored_by false ev) ev q /\ askable sky2 (ignored_by false ev) ev q).
Proof.
  cbn zeta. assert (W : wf_network sky) by (apply network_b_sound; vm_compute; reflexivity). assert (W2 : wf_network sky2) by (apply network_b_sound; vm_compute; reflexivity).
  split; [exact sky_merged|]. split; [split; [exact W|exact W2]|]. split; [split; apply complete_b_sound; vm_compute; reflexivity|]. split; [split; apply nonnegative_b_sound; vm_compute; reflexivity|].
  split; [apply observations_b_sound; vm_compute; reflexivity|]. split; [vm_compute; intuition discriminate|].
  intros q Hq. split; apply askable_b_sound; destruct Hq as [<-|[]]; vm_compute; reflexivity.
Qed.
Example C115_example : shown_answer (net_solve_query sched_id sky [("ground", "wet")] ["weather"] false) = Some [("weather", [SFin (5#26); SFin (3#26); SFin (9#13)])] /\
  shown_answer (net_solve_query sched_id sky2 [("ground", "wet")] ["weather"] false) = Some [("weather", [SFin (4#13); SFin (9#13)])].
Proof. split; vm_compute; reflexivity. Qed.

Example C113_hypotheses : let h := fun z k => if String.eqb z "weather" then fair_or_rainy k else k in let ev := [("weather", "rainy"); ("ground", "wet")] in
  summary h sky sky2 /\ valid_observations sky ev /\ valid_observations sky2 ev /\ Forall2 (same_observation h sky sky2) ev ev.
Proof.
  cbn zeta. destruct C115_hypotheses as (H1 & (H2 & H3) & (H4 & _) & _). split; [apply (C115_joint _ _ _ _ H1 H2 H3 H4)|]. split; [apply observations_b_sound; vm_compute; reflexivity|]. split; [apply observations_b_sound; vm_compute; reflexivity|].
  constructor; [|constructor; [|constructor]]; (split; [reflexivity|]).
  - exists (nth 0 (n_vars sky) slip_var), (nth 0 (n_vars sky2) slip_var), 2%nat. do 4 (split; [reflexivity|]). intros k Hk. change (k < 3)%nat in Hk. destruct k as [|[|[|]]]; try lia; intros E; vm_compute in E; congruence.
  - exists (nth 1 (n_vars sky) slip_var), (nth 1 (n_vars sky2) slip_var), 1%nat. do 4 (split; [reflexivity|]). intros k _ E. exact E.
Qed.

Print Assumptions C113_summary.
Print Assumptions C114_joint.
Print Assumptions C114_answers.
Print Assumptions C115_joint.
Print Assumptions C115_answers.
