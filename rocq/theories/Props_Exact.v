(** What the code does where properties C15, C23 and C43 do not hold: exactly which result there
    is (ve/variables.go: Rearrange; ve/ve.go: SolveUtility; training.go: UpdateNetwork). The
    vocabulary is in SpecFactor.v, SpecVE.v, SpecRepeat.v, SpecNet.v and SpecTrain.v. *)
From Coq Require Import ZArith List Bool String Lia Permutation QArith Qcanon.
From Verif Require Import Num GoBase VarModel SpecFactor XnumFacts FactorThms VEModel SpecVE VECor VEOutcomes NetModel SpecNet NetNew TrainModel SpecTrain TrainFacts TrainUpdate TrainThms TrainError
  SpecRepeat FactorRepeat Props_Factor Props_VE Props_Net Props_Train.
Import ListNotations.
Open Scope string_scope.
Open Scope list_scope.
Open Scope Z_scope.

(** ** C15: Rearrange with variables that are repeated *)

(** Rearrange panics exactly for lists of another length and for variables that are not in the
    factor. All other lists are accepted. In the result, a variable that is listed several times
    has the outcome given last, and one that is not listed has its first outcome. *)
Theorem C15_rearrange_exact : forall (A : Type) (N : NumOps A) s (f : factor A) vars, wf_factor f -> (forall v, In v (f_vars f) -> (0 < v_outcomes v)%nat) ->
  ((exists p, rearrange s f vars = Panic p) <-> List.length vars <> List.length (f_vars f) \/ exists v, In v vars /\ ~ In v (f_vars f)) /\
  (List.length vars = List.length (f_vars f) -> (forall v, In v vars -> In v (f_vars f)) ->
   exists f', rearrange s f vars = Ok (FactorFacts.bump s, f') /\ f_vars f' = vars /\ List.length (f_data f') = num_cells vars /\
     forall t, Forall2 (fun v k => (k < v_outcomes v)%nat) vars t -> f_get f' (map Z.of_nat t) = get_at f (last_given vars t)).
Proof.
  intros A N s f vars Hw H0. split; [|apply rearrange_any; auto]. split; [|apply C15_rearrange_rejects_partial].
  intros (p & E). destruct (Nat.eq_dec (List.length vars) (List.length (f_vars f))) as [El|El]; auto. right.
  assert (D : (exists v, In v vars /\ ~ In v (f_vars f)) \/ forall v, In v vars -> In v (f_vars f)).
  { clear. induction vars as [|v vars IH]; [right; intros v []|]. destruct (in_dec var_dec v (f_vars f)) as [Hi|Hi]; [|left; exists v; simpl; auto].
    destruct IH as [(u & H1 & H2)|H]; [left; exists u; simpl; auto|right]. intros u [<-|Hu]; auto. }
  destruct D as [D|D]; auto. exfalso. destruct (rearrange_any s f vars Hw H0 El D) as (f' & E' & _). congruence.
Qed.
(** Asking for x twice instead of x and y: entry (i, j) of the result is entry (j, 0) of the factor. *)
Example C15_exact_example : wf_factor ex_f /\ (forall v, In v (f_vars ex_f) -> (0 < v_outcomes v)%nat) /\ List.length [ex_x; ex_x] = List.length (f_vars ex_f) /\ (forall v, In v [ex_x; ex_x] -> In v (f_vars ex_f)) /\
  map xshow (f_data ex_f) = [SFin 1; SFin 2; SFin 3; SFin 4; SFin 4; SFin 0] /\
  option_map (fun r => map xshow (f_data (snd r))) (match rearrange ex_s ex_f [ex_x; ex_x] with Ok r => Some r | _ => None end) = Some [SFin 1; SFin 4; SFin 1; SFin 4].
Proof.
  split; [apply ex_f_wf|]. split; [simpl; intros v [<-|[<-|[]]]; vm_compute; lia|]. split; [reflexivity|]. split; [simpl; intros v [<-|[<-|[]]]; auto|].
  split; vm_compute; reflexivity.
Qed.

(** ** C23: total utility when utility variables have several outcomes *)

(** The total is the weighted sum, over the utility variables, of all entries computed for that
    variable alone, times the number of combinations of outcomes of the other utility variables. *)
Theorem C23_any_outcomes : forall sc t vs fs deps w evs query own (scu : variable -> sched) (tu : variable -> nat),
  ve_problem vs fs deps -> valid_evidence (vs_vars vs) evs ->
  let V := vs_vars vs in
  let H := hidden_in V deps evs query in
  utilities_of V <> [] ->
  Permutation (map own (utilities_of V)) (utility_factors fs) /\
    (forall u u', In u (utilities_of V) -> In u' (utilities_of V) -> (In u' (f_vars (own u)) <-> u' = u)) ->
  match w with None => True | Some l => List.length l = List.length (utilities_of V) end ->
  (forall h, In h H -> exists f, In f (prob_factors fs) /\ In h (f_vars f)) ->
  exists s' f, ve_solve_utility sc (ve_new t vs fs deps (finite_weights w)) evs query None = Ok (s', f) /\
    forall a, in_range V a -> exists vals,
      Forall2 (fun u x => exists s'' g ys,
         ve_solve_utility (scu u) (ve_new (tu u) vs fs deps (finite_weights w)) evs query (Some u) = Ok (s'', g) /\
         List.length ys = v_outcomes u /\ (forall k, (k < v_outcomes u)%nat -> get_at g (upd a (v_id u) k) = Ok (Fin (nth k ys 0%Qc))) /\
         x = (other_combinations V u * qsum ys)%Qc) (utilities_of V) vals /\
      get_at f a = Ok (Fin (qsum (map (fun p => fst p * snd p)%Qc
        (combine (match w with None => repeat 1%Qc (List.length (utilities_of V)) | Some l => l end) vals)))).
Proof. exact total_any_outcomes. Qed.
(** The case of C23_many_outcomes_refuted: 1 * (1 + 2) + 2 * 10 = 23. *)
Example C23_any_example : ve_problem two_vs two_fs [] /\ valid_evidence (vs_vars two_vs) [] /\ utilities_of (vs_vars two_vs) = [two_u1; two_u2] /\
  Permutation (map (fun u => if (v_id u =? 0)%Z then nth 0 two_fs (mkFactor 0 [] []) else nth 1 two_fs (mkFactor 0 [] [])) (utilities_of (vs_vars two_vs))) (utility_factors two_fs) /\
  hidden_in (vs_vars two_vs) [] [] [] = [] /\
  other_combinations (vs_vars two_vs) two_u1 = 1%Qc /\ other_combinations (vs_vars two_vs) two_u2 = Q2Qc (2#1).
Proof.
  split; [apply C23_many_outcomes_refuted|]. split; [intros e []|]. split; [reflexivity|]. split; [apply Permutation_refl|]. split; [reflexivity|].
  split; apply Qc_is_canon; vm_compute; reflexivity.
Qed.

(** ** C43: the network after training has failed *)

(** Training visits the nodes in their order, and the rows of each table in theirs. It stops at the
    first row [s0] without usable samples. Rows visited before hold what properties C41 and C42
    say, all others hold what they held before. *)
Theorem C43_after_error : forall n samples n' e, trainable n -> plain_parents n -> (forall smp, In smp samples -> valid_sample (n_vars n) smp) ->
  train n samples = (n', Err e) ->
  exists pre v post f0 s0, n_vars n = pre ++ v :: post /\ nv_type v <> Decision /\ own_factor n v f0 /\ state_of (n_vars n) s0 /\
    usable_count (n_vars n) v (nf_given f0) s0 samples = 0 /\
    forall w f s, In w (n_vars n) -> nv_type w <> Decision -> own_factor n w f -> state_of (n_vars n) s ->
    let visited := In w pre \/ w = v /\ (cell (n_vars n) (nf_given f0) s < cell (n_vars n) (nf_given f0) s0)%nat in
    let place := cell (n_vars n) (nf_given f ++ [nv_name w]) s in
    exists f', own_factor n' w f' /\ same_tables_shape f f' /\
      (visited -> 0 < usable_count (n_vars n) w (nf_given f) s samples /\
        (nv_type w = Chance -> nth_error (slice_of (nf_table f')) place =
           Some (Fin (qz (count_of (shows (n_vars n) (nf_given f ++ [nv_name w]) s) samples) / qz (usable_count (n_vars n) w (nf_given f) s samples)))) /\
        (nv_type w = Utility -> (forall smp, In smp samples -> exists q, reported (n_vars n) smp (nv_name w) = Fin q \/ reported (n_vars n) smp (nv_name w) = NaN) ->
           nth_error (slice_of (nf_table f')) place = Some (Fin (if (s (nv_name w) =? 0)%nat
             then (mean (map (fun smp => finite_value (reported (n_vars n) smp (nv_name w))) (filter (usable (n_vars n) w (nf_given f) s) samples)) / qz 2)%Qc
             else 0%Qc)))) /\
      (~ visited -> nth_error (slice_of (nf_table f')) place = nth_error (slice_of (nf_table f)) place).
Proof.
  intros n samples n' e Hta Hp Hval E. pose proof (fac_nodup n Hta Hp) as Hnd.
  destruct (train_result n Hta samples Hval Hnd) as [(n2 & E2 & _)|(n2 & e2 & E2 & Hd & _)]; [congruence|]. assert (n2 = n') by congruence. subst n2. clear E2 e2.
  destruct (train_ok n Hta samples Hval) as (t & HC & Et). rewrite Et in E.
  destruct (update_error n Hta samples t n' e HC E) as (i & v & j & T' & Hi & Hj & Hz & Hb & Ho & HL & HT & Hbef & Haft).
  pose proof (nth_error_In _ _ Hi) as Hv. destruct (row_state n Hta v j Hv Hj) as (Ht & s0 & Hs0 & Ej). specialize (Ej (Hnd v Hv)).
  destruct (nth_error_split _ _ Hi) as (pre & post & Epp & Elen).
  destruct (fac_spec n Hta v Hv) as (_ & Hov & _).
  assert (Hnv : NoDup (n_vars n)) by (apply (NoDup_map_inv nv_name), (ta_names n Hta)).
  exists pre, v, post, (fac n v), s0. split; auto. split; auto. split; auto. split; auto. split.
  { rewrite <- Ej, count_usable in Hz by auto. destruct (is_utility v); lia. }
  assert (Hsh : forall w f f', own_factor n w f -> own_factor n' w f' -> same_tables_shape f f').
  { intros w f f' (k & K1 & K2) (k' & K3 & K4). destruct Hd as (_ & _ & _ & _ & _ & _ & _ & Hd). assert (k' = k) by congruence. subst k'.
    clear - Hd K2 K4. revert k K2 K4. induction Hd; intros [|k] K2 K4; try discriminate; simpl in *; eauto. congruence. }
  assert (Hval_at : forall w s, In w (n_vars n) -> state_of (n_vars n) s -> usable_count (n_vars n) w (nf_given (fac n w)) s samples <> 0 ->
     0 < usable_count (n_vars n) w (nf_given (fac n w)) s samples /\
     (nv_type w = Chance -> nth_error (slice_of (nf_table (trained n samples w))) (cell (n_vars n) (nf_given (fac n w) ++ [nv_name w]) s) =
           Some (Fin (qz (count_of (shows (n_vars n) (nf_given (fac n w) ++ [nv_name w]) s) samples) / qz (usable_count (n_vars n) w (nf_given (fac n w)) s samples)))) /\
     (nv_type w = Utility -> (forall smp, In smp samples -> exists q, reported (n_vars n) smp (nv_name w) = Fin q \/ reported (n_vars n) smp (nv_name w) = NaN) ->
           nth_error (slice_of (nf_table (trained n samples w))) (cell (n_vars n) (nf_given (fac n w) ++ [nv_name w]) s) = Some (Fin (if (s (nv_name w) =? 0)%nat
             then (mean (map (fun smp => finite_value (reported (n_vars n) smp (nv_name w))) (filter (usable (n_vars n) w (nf_given (fac n w)) s) samples)) / qz 2)%Qc
             else 0%Qc)))).
  { intros w s Hw Hs H. split; [unfold usable_count, count_of, zlen in *; lia|]. split.
    - intros Hc. apply chance_entry; auto.
    - intros Hu Hfin. rewrite utility_entry by auto. destruct (s (nv_name w) =? 0)%nat; auto. do 2 f_equal. unfold mean. rewrite qz_mul.
      assert (El : zlen (map (fun smp => finite_value (reported (n_vars n) smp (nv_name w))) (filter (usable (n_vars n) w (nf_given (fac n w)) s) samples)) = usable_count (n_vars n) w (nf_given (fac n w)) s samples).
      { unfold usable_count, count_of, zlen. rewrite map_length. auto. }
      rewrite El. field. split; intros Hq; [apply (qz_inj _ 0) in Hq; auto|apply (qz_inj 2 0) in Hq; discriminate]. }
  assert (Hu0 : forall w s, In w (n_vars n) -> state_of (n_vars n) s -> hit_count n w (cell (n_vars n) (nf_given (fac n w)) s) samples <> 0 -> usable_count (n_vars n) w (nf_given (fac n w)) s samples <> 0).
  { intros w s Hw Hs H E0. apply H. rewrite count_usable, E0 by auto. lia. }
  intros w f s Hw Htw How Hs. pose proof (own_fac n w f How) as ->. cbv zeta.
  destruct (In_nth_error _ _ Hw) as (i' & Hi').
  assert (Hpre : In w pre <-> (i' < i)%nat).
  { split.
    - intros Hin. destruct (In_nth_error _ _ Hin) as (m & Hm). assert (Hml : (m < List.length pre)%nat) by (apply nth_error_Some; congruence).
      assert (m = i'). { rewrite NoDup_nth_error in Hnv. apply Hnv; [rewrite Epp, app_length; simpl; lia|]. rewrite Hi', Epp, nth_error_app1; auto. } lia.
    - intros Hl. apply (nth_error_In pre i'). rewrite Epp, nth_error_app1 in Hi' by lia. auto. }
  assert (Hwv : w = v <-> i' = i).
  { split; [intros ->|intros ->; congruence]. rewrite NoDup_nth_error in Hnv. apply Hnv; [apply nth_error_Some; congruence|congruence]. }
  destruct (lt_eq_lt_dec i' i) as [[Hl| -> ]|Hl].
  - destruct (Hbef i' w Hl Hi') as (Ho' & Hnz). exists (trained n samples w). split; auto. split; [eapply Hsh; eauto|]. split; [|intros H; exfalso; apply H; left; apply Hpre; auto].
    intros _. apply Hval_at; auto. apply Hu0; auto. apply Hnz. apply cell_row; auto.
  - assert (w = v) by (apply Hwv; auto). subst w. eexists. split; [exact Ho|]. split; [eapply Hsh; eauto|]. cbn [nf_table slice_of].
    rewrite HT. pose proof (cell_snoc (n_vars n) (nf_given (fac n v)) (nv_name v) s) as Ec. rewrite (named_outcomes n Hta v Hv) in Ec.
    pose proof (Hs v Hv) as Hsv. unfold cols. rewrite Ec. set (c := cell (n_vars n) (nf_given (fac n v)) s) in *. rewrite Ej.
    destruct (Nat.ltb_spec (c * List.length (nv_outcomes v) + s (nv_name v)) (j * List.length (nv_outcomes v))) as [Hlt|Hge].
    + assert (Hcj : (c < j)%nat) by nia. split; [|intros H; exfalso; apply H; right; auto]. intros _. rewrite <- Ec. apply Hval_at; auto.
    + assert (Hcj : (j <= c)%nat) by nia. split; [|auto]. intros [H|[_ H]]; [apply Hpre in H; lia|lia].
  - pose proof (Haft i' w Hl Hi') as Ho'. exists (fac n w). split; auto. split; [eapply Hsh; eauto|]. split; auto. intros [H|[H _]]; [apply Hpre in H; lia|apply Hwv in H; lia].
Qed.
(** The first node is trained, of the second one only the first row. *)
Example C43_after_error_example : trainable trip /\ plain_parents trip /\ (exists e, snd (train trip trip_few) = Err e) /\
  shown_table (train trip trip_few) 1 = Some [SFin 1; SFin 0; SFin 0; SFin 1; SFin 1; SFin 1].
Proof.
  split; [apply trip_trainable|]. split; [apply trip_trainable|]. split; [eexists|]; vm_compute; reflexivity.
Qed.

Print Assumptions C15_rearrange_exact.
Print Assumptions C23_any_outcomes.
Print Assumptions C43_after_error.
