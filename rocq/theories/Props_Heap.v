(** Properties C101-C103: tables and results are slices, which refer to arrays in memory that
    several slices may share. Specification vocabulary: SpecHeap.v. *)
From Coq Require Import ZArith QArith Qcanon List Bool String Lia.
From Verif Require Import Num GoBase GoFacts VarModel VEModel NetModel TrainModel HeapVarModel HeapSim HeapVEModel HeapVE HeapNetModel SpecHeap HeapNet HeapTrain HeapSession Props_VE Props_Net Props_Train.
Import ListNotations.
Open Scope string_scope.
Open Scope list_scope.
Open Scope Z_scope.

Section Heap.
Context {A : Type} {N : NumOps A}.

(** New accepts the same arguments in memory and as values. *)
Theorem C101_new (h : heap A) name info vars factors factors' :
  read_all (read_nfactor h) factors = Some factors' ->
  match net_new name info vars factors, net_new name info vars factors' with
  | Ok n, Ok v => program h n v []
  | Err e, Err e' => e = e'
  | Panic p, Panic p' => p = p'
  | _, _ => False
  end.
Proof.
  intros HR. assert (HF : Forall2 (same_nfactor h) factors factors').
  { eapply related_impl; [|apply read_all_related, HR]. intros f g. apply read_nfactor_same. }
  pose proof (new_same h name info vars _ _ HF) as G.
  destruct (net_new name info vars factors) as [n|e|p] eqn:E1, (net_new name info vars factors') as [v|e'|p'] eqn:E2; try exact G.
  eapply p_new; try eassumption. intros a [].
Qed.

(** C101. Whatever a program did with the network, and wrote to arrays of its own, a method
    returns what the value model says for the same calls. *)
Theorem C101_answers sc (h : heap A) n v mine rq rq' :
  program h n v mine -> positional sc ->
  read_request h rq = Some rq' ->
  (is_training rq = true -> NoDup (tables n)) ->
  let '(h', (m, r)) := h_serve sc n rq h in
  let '(v', r') := serve sc v rq' in
  same_answer h' r r'.
Proof.
  intros HP Hsc HR HT. destruct (program_inv _ _ _ _ HP) as (Hn & HD & _). destruct (is_training rq) eqn:E.
  - destruct rq; try discriminate E. injection HR as <-. specialize (HT eq_refl). rewrite (tables_arrays _ _ _ Hn) in HT.
    pose proof (train_ok sc h n v samples Hn HT HD) as HS. destruct (h_serve sc n _ h) as [h' [m r]], (serve sc v _) as [v' r']. apply HS.
  - pose proof (serve_ok sc h n v rq rq' Hsc Hn HR E) as (_ & _ & _ & HS & _). destruct (h_serve sc n _ h) as [h' [m r]], (serve sc v _) as [v' r']. exact HS.
Qed.

(** C102. Every method but training leaves all arrays that exist as they are, also when it
    returns an error or panics. *)
Theorem C102_solving_writes_nothing sc (h : heap A) n v mine rq rq' :
  program h n v mine -> positional sc ->
  read_request h rq = Some rq' -> is_training rq = false ->
  let '(h', _) := h_serve sc n rq h in
  forall a d, nth_error h a = Some d -> nth_error h' a = Some d.
Proof.
  intros HP Hsc HR E. destruct (program_inv _ _ _ _ HP) as (Hn & _).
  pose proof (serve_ok sc h n v rq rq' Hsc Hn HR E) as (Ho & _). destruct (h_serve sc n rq h) as [h' [m r]]. cbn [fst] in Ho.
  intros a d. now apply old_nth.
Qed.

(** The arrays of a result did not exist before, and are not among those that the network uses. *)
Theorem C102_results_are_new sc (h : heap A) n v mine rq rq' :
  program h n v mine -> positional sc ->
  read_request h rq = Some rq' ->
  let '(h', (m, r)) := h_serve sc n rq h in
  forall x a, r = Ok x -> In a (reply_arrays x) ->
    nth_error h a = None /\ ~ In a (tables m) /\ ~ In a (policies m).
Proof.
  intros HP Hsc HR. destruct (program_inv _ _ _ _ HP) as (Hn & _). destruct (is_training rq) eqn:E.
  - destruct rq; try discriminate E. cbn [h_serve]. destruct (h_train n samples h) as [h' [u|e|p]]; intros x a Ex Ha; inversion Ex; subst; destruct Ha.
  - pose proof (serve_ok sc h n v rq rq' Hsc Hn HR E) as (Ho & Hm & Hk & _ & HX). destruct (h_serve sc n rq h) as [h' [m r]]. cbn [fst snd] in *.
    intros x a -> Ha. destruct (proj1 (HX x eq_refl) a Ha) as (B & NP). rewrite (tables_arrays _ _ _ Hm), (policies_arrays _ _ _ Hm). repeat split.
    + apply nth_error_None. lia.
    + rewrite (kept_tables _ _ _ Hk). intros H. apply (table_bound _ _ _ _ Hn) in H. lia.
    + exact NP.
Qed.

(** Training writes to the tables of its network and to nothing else. *)
Theorem C102_training_writes_tables sc (h : heap A) n v mine samples :
  program h n v mine -> NoDup (tables n) ->
  let '(h', _) := h_serve sc n (RTrain samples) h in
  forall a, ~ In a (tables n) -> nth_error h' a = nth_error h a.
Proof.
  intros HP ND. destruct (program_inv _ _ _ _ HP) as (Hn & HD & _). rewrite (tables_arrays _ _ _ Hn) in *.
  pose proof (train_ok sc h n v samples Hn ND HD) as HS. destruct (h_serve sc n _ h) as [h' [m r]], (serve sc v _) as [v' r'].
  destruct HS as (_ & HW & _). apply HW.
Qed.

(** The slices of a result do not share an array. *)
Theorem C102_results_are_separate sc (h : heap A) n v mine rq rq' :
  program h n v mine -> positional sc ->
  read_request h rq = Some rq' ->
  let '(_, (_, r)) := h_serve sc n rq h in
  forall x, r = Ok x -> NoDup (reply_arrays x).
Proof.
  intros HP Hsc HR. destruct (program_inv _ _ _ _ HP) as (Hn & _). destruct (is_training rq) eqn:E.
  - destruct rq; try discriminate E. cbn [h_serve]. destruct (h_train n samples h) as [h' [u|e|p]]; intros x Ex; inversion Ex; constructor.
  - pose proof (serve_ok sc h n v rq rq' Hsc Hn HR E) as (Ho & Hm & Hk & _ & HX). destruct (h_serve sc n rq h) as [h' [m r]]. cbn [fst snd] in *.
    intros x ->. apply (HX x eq_refl).
Qed.

(** C103, what holds. Missing from the full statement: the networks have to use different
    tables. A call of the one, also a training and also one that fails, then leaves the other as
    it is, and the two still have different arrays. So this holds for all sequences of calls. *)
Theorem C103_separate_partial sc (h : heap A) n v mine n2 v2 mine2 rq rq' :
  program h n v mine -> program h n2 v2 mine2 -> separate n n2 ->
  positional sc -> read_request h rq = Some rq' ->
  (is_training rq = true -> NoDup (tables n2)) ->
  let '(h', (m2, r)) := h_serve sc n2 rq h in
  let '(v2', _) := serve sc v2 rq' in
  program h' n v mine /\ separate n m2 /\
  ((forall p, r <> Panic p) -> program h' m2 v2' (match r with Ok x => reply_arrays x | _ => [] end ++ mine2)).
Proof.
  intros HP HP2 HS Hsc HR HT. destruct (program_inv _ _ _ _ HP) as (Hn & _). destruct (program_inv _ _ _ _ HP2) as (Hn2 & HD2 & _).
  destruct (h_serve sc n2 rq h) as [h' [m2 r]] eqn:E1, (serve sc v2 rq') as [v2' r'] eqn:E2.
  assert (HX : program h' n v mine /\ separate n m2).
  { destruct (is_training rq) eqn:E.
    - destruct rq; try discriminate E. injection HR as <-. specialize (HT eq_refl). rewrite (tables_arrays _ _ _ Hn2) in HT.
      pose proof (train_ok sc h n2 v2 samples Hn2 HT HD2) as HO. rewrite E1, E2 in HO. destruct HO as (-> & (L & HW) & _). split; [|exact HS].
      apply (p_other h); [exact HP|lia|]. intros a Ha. apply HW. rewrite <- (tables_arrays _ _ _ Hn2). intros H. apply (HS a Ha). now left.
    - pose proof (serve_ok sc h n2 v2 rq rq' Hsc Hn2 HR E) as (Ho & Hm & Hk & _). rewrite E1, E2 in *. cbn [fst snd] in *. split.
      + apply (p_other h); [exact HP|exact (old_length _ _ Ho)|]. intros a Ha. rewrite (tables_arrays _ _ _ Hn), (policies_arrays _ _ _ Hn) in Ha.
        assert (B : (a < List.length h)%nat) by (destruct Ha as [Ha|Ha]; [apply (table_bound _ _ _ _ Hn Ha)|apply (policy_bound _ _ _ _ Hn Ha)]).
        destruct (nth_error h a) as [d|] eqn:En; [now apply (old_nth _ _ _ _ Ho)|]. apply nth_error_None in En. lia.
      + intros a Ha Hb. apply (HS a Ha). rewrite (tables_arrays _ _ _ Hm), (policies_arrays _ _ _ Hm), (kept_tables _ _ _ Hk) in Hb.
        rewrite (tables_arrays _ _ _ Hn2), (policies_arrays _ _ _ Hn2). destruct Hb as [Hb|Hb]; [now left|]. destruct Hk as (_ & _ & Hk).
        destruct (Hk a Hb) as [H|H]; [now right|]. exfalso. rewrite (tables_arrays _ _ _ Hn), (policies_arrays _ _ _ Hn) in Ha.
        assert (B : (a < List.length h)%nat) by (destruct Ha as [Ha|Ha]; [apply (table_bound _ _ _ _ Hn Ha)|apply (policy_bound _ _ _ _ Hn Ha)]). lia. }
  destruct HX as (HX1 & HX2). split; [exact HX1|]. split; [exact HX2|]. intros HN. eapply p_call; try eassumption.
Qed.

(** ** Concrete programs *)
(** Tables that are put into memory one after the other, from address [k] *)
Fixpoint in_memory (k : nat) (fs : list (nfactor A)) : heap A * list (nfactor nat) :=
  match fs with
  | [] => ([], [])
  | f :: fs => let '(h, gs) := in_memory (match nf_table f with Some _ => S k | None => k end) fs in
      match nf_table f with
      | Some t => (t :: h, mkNFactor (nf_for f) (nf_given f) (Some (ref k)) (nf_outcomes f) (nf_columns f) :: gs)
      | None => (h, mkNFactor (nf_for f) (nf_given f) None (nf_outcomes f) (nf_columns f) :: gs)
      end
  end.

Fixpoint all_different (l : list nat) : bool :=
  match l with [] => true | x :: r => negb (existsb (Nat.eqb x) r) && all_different r end.
Lemma all_different_nodup l : all_different l = true -> NoDup l.
Proof.
  induction l as [|x l IH]; cbn; [constructor|]. rewrite andb_true_iff, negb_true_iff. intros [H1 H2]. constructor; [|auto].
  intros H. assert (E : existsb (Nat.eqb x) l = true) by (apply existsb_exists; exists x; split; [exact H|apply Nat.eqb_refl]). congruence.
Qed.

(** A program as a list of steps: call a method, overwrite the array at an address, make an array *)
Inductive step := Call (rq : request A nat) | Write (a : nat) (d : list A) | Make (d : list A).
Definition state := (heap A * network nat * network A * list nat)%type.
Definition start (name : string) vars (fs : list (nfactor A)) : option state :=
  let '(h, gs) := in_memory 0 fs in
  match read_all (read_nfactor h) gs with
  | Some fs' => match net_new name "" vars gs, net_new name "" vars fs' with Ok n, Ok v => Some (h, n, v, []) | _, _ => None end
  | None => None
  end.
Definition go (x : state) (s : step) : option state :=
  let '(h, n, v, mine) := x in
  match s with
  | Call rq => match read_request h rq with
               | Some rq' => if is_training rq && negb (all_different (tables n)) then None
                   else let '(h', (m, r)) := h_serve sched_id n rq h in
                        match r with
                        | Panic _ => None
                        | Err _ => Some (h', m, fst (serve sched_id v rq'), mine)
                        | Ok x => Some (h', m, fst (serve sched_id v rq'), reply_arrays x ++ mine)
                        end
               | None => None
               end
  | Write a d => if in_dec Nat.eq_dec a mine then Some (upd_nth h a d, n, v, mine) else None
  | Make d => Some (h ++ [d], n, v, List.length h :: mine)
  end.
Fixpoint steps (x : state) (l : list step) : option state :=
  match l with [] => Some x | s :: l => match go x s with Some y => steps y l | None => None end end.
Definition is_program (x : state) : Prop := let '(h, n, v, mine) := x in program h n v mine.

Lemma start_program name vars fs x : start name vars fs = Some x -> is_program x.
Proof.
  unfold start. destruct (in_memory 0 fs) as [h gs]. destruct (read_all (read_nfactor h) gs) as [fs'|] eqn:E; [|discriminate].
  destruct (net_new name "" vars gs) as [n|e|p] eqn:E1; try discriminate. destruct (net_new name "" vars fs') as [v|e|p] eqn:E2; try discriminate.
  intros H. injection H as <-. eapply p_new; try eassumption. intros a [].
Qed.
Lemma go_program x s y : is_program x -> go x s = Some y -> is_program y.
Proof.
  destruct x as [[[h n] v] mine]. cbn [is_program]. intros HP. destruct s as [rq|a d|d]; cbn [go].
  - destruct (read_request h rq) as [rq'|] eqn:ER; [|discriminate].
    destruct (is_training rq && negb (all_different (tables n))) eqn:EB; [discriminate|].
    assert (HT : is_training rq = true -> NoDup (tables n)). { intros ET. rewrite ET in EB. apply all_different_nodup. now destruct (all_different (tables n)). }
    destruct (h_serve sched_id n rq h) as [h' [m r]] eqn:E1. destruct (serve sched_id v rq') as [v' r'] eqn:E2.
    destruct r as [z|e|p]; intros H; try discriminate; injection H as <-; cbn [is_program fst].
    + apply (p_call sched_id rq rq' h n v mine h' m (Ok z) v' r' HP positional_id ER HT E1 E2). discriminate.
    + apply (p_call sched_id rq rq' h n v mine h' m (Err e) v' r' HP positional_id ER HT E1 E2). discriminate.
  - destruct (in_dec Nat.eq_dec a mine); [|discriminate]. intros H. injection H as <-. now apply p_write.
  - intros H. injection H as <-. now apply p_make.
Qed.
Lemma steps_program l x y : is_program x -> steps x l = Some y -> is_program y.
Proof.
  revert x. induction l as [|s l IH]; intros x HP; cbn [steps]; [congruence|]. destruct (go x s) as [z|] eqn:E; [|discriminate]. apply IH, (go_program x s z HP E).
Qed.

End Heap.

(** What is printed of a result *)
Definition shown_reply (h : heap xnum) (r : gores (reply nat)) : option (list (string * list shown)) :=
  match r with
  | Ok x => match read_reply h x with
            | Some (PMarginals m f) => Some (map (fun p => (fst p, map xshow (snd p))) m ++ [("factor", map xshow (f_data f))])
            | Some (PFactor f) => Some [("factor", map xshow (f_data f))]
            | Some (PPolicies m) => Some (map (fun p => (fst p, map xshow (match nf_table (snd p) with Some t => t | None => [] end))) m)
            | Some (PSlice l) => Some [("slice", map xshow l)]
            | _ => Some []
            end
  | _ => None
  end.
Definition shown_call (x : option state) (rq : request xnum nat) : option (list (string * list shown)) :=
  match x with Some (h, n, _, _) => let '(h', (_, r)) := h_serve sched_id n rq h in shown_reply h' r | None => None end.
Definition from (name : string) vars (fs : list (nfactor xnum)) (l : list step) : option state := match start name vars fs with Some x => steps x l | None => None end.


(** Ask for the weather, overwrite both arrays of the answer, make an array, find a policy,
    overwrite it, train. *)
Definition ask : request xnum nat := RQuery [("forecast", "good")] ["weather"] false.
Definition trip_steps : list step := [Call ask; Write 8 (lit [9#1; 9#1]); Write 6 []; Make (lit [7#1]); Call (RPolicies true); Write 21 (lit [3#1]); Call (RTrain trip_samples)].
Definition trip_from := from "trip" trip_vars trip_factors.
Lemma from_program name vars fs l x : from name vars fs l = Some x -> is_program x.
Proof. unfold from. destruct (start name vars fs) as [y|] eqn:E; [|discriminate]. apply steps_program, (start_program _ _ _ _ E). Qed.

Example C101_example : exists h n v mine, program h n v mine /\ NoDup (tables n) /\ positional sched_id /\
  mine = [21; 9; 8; 6]%nat /\ tables n = [0; 1; 2]%nat /\ policies n = [16]%nat /\
  map (fun a => option_map (map xshow) (nth_error h a)) mine = [Some [SFin (3#1)]; Some [SFin (7#1)]; Some [SFin (9#1); SFin (9#1)]; Some []] /\
  shown_call (Some (h, n, v, mine)) ask = Some [("weather", [SFin (1#1); SFin (0#1)]); ("factor", [SFin (8#21); SFin (0#1)])] /\
  shown_call (Some (h, n, v, mine)) (RPolicies true) = Some [("trip", [SFin (1#1); SFin (0#1); SFin (1#1); SFin (0#1); SFin (0#1); SFin (1#1)])].
Proof.
  assert (G : forall o : option state, (forall x, o = Some x -> is_program x) -> match o with
    | Some (h, n, v, mine) => Some (mine, tables n, policies n, map (fun a => option_map (map xshow) (nth_error h a)) mine,
        shown_call (Some (h, n, v, mine)) ask, shown_call (Some (h, n, v, mine)) (RPolicies true))
    | None => None
    end = Some ([21; 9; 8; 6]%nat, [0; 1; 2]%nat, [16]%nat, [Some [SFin (3#1)]; Some [SFin (7#1)]; Some [SFin (9#1); SFin (9#1)]; Some []],
      Some [("weather", [SFin (1#1); SFin (0#1)]); ("factor", [SFin (8#21); SFin (0#1)])],
      Some [("trip", [SFin (1#1); SFin (0#1); SFin (1#1); SFin (0#1); SFin (0#1); SFin (1#1)])]) ->
    exists h n v mine, program h n v mine /\ NoDup (tables n) /\ positional sched_id /\
      mine = [21; 9; 8; 6]%nat /\ tables n = [0; 1; 2]%nat /\ policies n = [16]%nat /\
      map (fun a => option_map (map xshow) (nth_error h a)) mine = [Some [SFin (3#1)]; Some [SFin (7#1)]; Some [SFin (9#1); SFin (9#1)]; Some []] /\
      shown_call (Some (h, n, v, mine)) ask = Some [("weather", [SFin (1#1); SFin (0#1)]); ("factor", [SFin (8#21); SFin (0#1)])] /\
      shown_call (Some (h, n, v, mine)) (RPolicies true) = Some [("trip", [SFin (1#1); SFin (0#1); SFin (1#1); SFin (0#1); SFin (0#1); SFin (1#1)])]).
  { intros [[[[h n] v] mine]|] HP H; [|discriminate H]. specialize (HP _ eq_refl).
    injection H as H1 H2 H3 H4 H5 H6. exists h, n, v, mine. split; [exact HP|].
    split; [apply all_different_nodup; rewrite H2; reflexivity|]. split; [apply positional_id|]. auto 10. }
  apply (G (trip_from trip_steps)); [intros x; apply from_program|vm_compute; reflexivity].
Qed.
(** The answer before is another one. *)
Example C101_example_before : shown_call (trip_from []) ask = Some [("weather", [SFin (1#2); SFin (1#2)]); ("factor", [SFin (1#6); SFin (1#6)])].
Proof. vm_compute. reflexivity. Qed.
Example C102_example : forall rq, rq = ask \/ rq = RPolicies true \/ rq = RToEvidence "weather" "rainy" -> exists rq', is_training rq = false /\
  forall h : heap xnum, read_request h rq = Some rq'.
Proof. intros rq [->|[->| ->]]; (eexists; split; [reflexivity|intros h; reflexivity]). Qed.

(** ** C103: two networks made from the same tables are not independent *)
(** Both networks are made by New from the same factors in the same memory. The one is asked,
    the other is trained, and the first gives another answer to the same question. *)
Theorem C103_self_contained_refuted : exists (h : heap xnum) n v n2 v2 h1 m x h2 y h3 m3,
  program h n v [] /\ program h n2 v2 [] /\ n_name n <> n_name n2 /\
  h_serve sched_id n ask h = (h1, (m, Ok x)) /\
  h_serve sched_id n2 (RTrain trip_samples) h1 = (h2, (n2, Ok PDone)) /\
  h_serve sched_id m ask h2 = (h3, (m3, Ok y)) /\
  shown_reply h1 (Ok x) = Some [("weather", [SFin (1#2); SFin (1#2)]); ("factor", [SFin (1#6); SFin (1#6)])] /\
  shown_reply h3 (Ok y) = Some [("weather", [SFin (1#1); SFin (0#1)]); ("factor", [SFin (8#21); SFin (0#1)])].
Proof.
  assert (H : match start "one" trip_vars trip_factors, start "two" trip_vars trip_factors with
    | Some (h, n, v, mine), Some (_, n2, v2, mine2) =>
        let '(h1, (m, x)) := h_serve sched_id n ask h in
        let '(h2, (m2, r)) := h_serve sched_id n2 (RTrain trip_samples) h1 in
        let '(h3, (m3, y)) := h_serve sched_id m ask h2 in
        match x, r, y with
        | Ok x, Ok PDone, Ok y => Some (n_name n, n_name n2, mine, mine2, shown_reply h1 (Ok x), shown_reply h3 (Ok y))
        | _, _, _ => None
        end
    | _, _ => None
    end = Some ("one", "two", [], [], Some [("weather", [SFin (1#2); SFin (1#2)]); ("factor", [SFin (1#6); SFin (1#6)])],
       Some [("weather", [SFin (1#1); SFin (0#1)]); ("factor", [SFin (8#21); SFin (0#1)])])) by (vm_compute; reflexivity).
  destruct (start "one" trip_vars trip_factors) as [[[[h n] v] mine]|] eqn:E1; [|discriminate H].
  destruct (start "two" trip_vars trip_factors) as [[[[h' n2] v2] mine2]|] eqn:E2; [|discriminate H].
  pose proof (start_program _ _ _ _ E1) as P1. pose proof (start_program _ _ _ _ E2) as P2. cbn [is_program] in P1, P2.
  assert (EH : h' = h). { unfold start in E1, E2. destruct (in_memory 0 trip_factors) as [hh gs]. destruct (read_all (read_nfactor hh) gs); [|discriminate E1].
    destruct (net_new "one" "" trip_vars gs), (net_new "one" "" trip_vars l); try discriminate E1. destruct (net_new "two" "" trip_vars gs), (net_new "two" "" trip_vars l); try discriminate E2. congruence. }
  subst h'. clear E1 E2. destruct (h_serve sched_id n ask h) as [h1 [m x]] eqn:Q1. destruct (h_serve sched_id n2 (RTrain trip_samples) h1) as [h2 [m2 r]] eqn:Q2.
  destruct (h_serve sched_id m ask h2) as [h3 [m3 y]] eqn:Q3. destruct x as [x|e|p]; try discriminate H. destruct r as [r|e|p]; try discriminate H.
  destruct r; try discriminate H. destruct y as [y|e|p]; try discriminate H. injection H as N1 N2 M1 M2 S1 S2. subst mine mine2.
  assert (m2 = n2). { cbn [h_serve] in Q2. destruct (h_train n2 trip_samples h1) as [hh r]. congruence. } subst m2.
  exists h, n, v, n2, v2, h1, m, x, h2, y, h3, m3. repeat split; auto. rewrite N1, N2. discriminate.
Qed.

(** A caller that keeps the slice it passed to New can change the answers by writing to it. *)
Theorem C103_caller_tables_refuted : exists (h : heap xnum) n v,
  program h n v [] /\ tables n = [0; 1; 2]%nat /\
  shown_call (Some (h, n, v, [])) ask = Some [("weather", [SFin (1#2); SFin (1#2)]); ("factor", [SFin (1#6); SFin (1#6)])] /\
  shown_call (Some (upd_nth h 0%nat (lit [1#4; 3#4]), n, v, [])) ask = Some [("weather", [SFin (1#4); SFin (3#4)]); ("factor", [SFin (1#12); SFin (1#4)])].
Proof.
  assert (H : match start "trip" trip_vars trip_factors with
    | Some (h, n, v, mine) => Some (mine, tables n, shown_call (Some (h, n, v, [])) ask, shown_call (Some (upd_nth h 0%nat (lit [1#4; 3#4]), n, v, [])) ask)
    | None => None end = Some ([], [0; 1; 2]%nat, Some [("weather", [SFin (1#2); SFin (1#2)]); ("factor", [SFin (1#6); SFin (1#6)])],
      Some [("weather", [SFin (1#4); SFin (3#4)]); ("factor", [SFin (1#12); SFin (1#4)])])) by (vm_compute; reflexivity).
  destruct (start "trip" trip_vars trip_factors) as [[[[h n] v] mine]|] eqn:E1; [|discriminate H]. pose proof (start_program _ _ _ _ E1) as P1. cbn [is_program] in P1.
  injection H as -> H2 H3 H4. exists h, n, v. auto.
Qed.

(** Two separate networks in one memory: the second one's tables come after the first one's. *)
Example C103_example : exists (h : heap xnum) n v n2 v2, program h n v [] /\ program h n2 v2 [] /\ separate n n2 /\ NoDup (tables n2) /\
  tables n = [0; 1; 2]%nat /\ tables n2 = [3; 4; 5]%nat.
Proof.
  pose (hg := @in_memory xnum 0 trip_factors). pose (hg2 := @in_memory xnum 3 umb_factors). pose (h := fst hg ++ fst hg2).
  assert (H : match read_all (read_nfactor h) (snd hg), net_new "trip" "" trip_vars (snd hg), read_all (read_nfactor h) (snd hg2), net_new "umbrella" "" umb_vars (snd hg2) with
    | Some fs, Ok n, Some fs2, Ok n2 => match net_new "trip" "" trip_vars fs, net_new "umbrella" "" umb_vars fs2 with
       | Ok _, Ok _ => Some (tables n, policies n, tables n2, policies n2) | _, _ => None end
    | _, _, _, _ => None end = Some ([0; 1; 2]%nat, [], [3; 4; 5]%nat, [])) by (vm_compute; reflexivity).
  destruct (read_all (read_nfactor h) (snd hg)) as [fs|] eqn:R1; [|discriminate H]. destruct (net_new "trip" "" trip_vars (snd hg)) as [n|e|p] eqn:N1; try discriminate H.
  destruct (read_all (read_nfactor h) (snd hg2)) as [fs2|] eqn:R2; [|discriminate H]. destruct (net_new "umbrella" "" umb_vars (snd hg2)) as [n2|e|p] eqn:N2; try discriminate H.
  destruct (net_new "trip" "" trip_vars fs) as [v|e|p] eqn:V1; try discriminate H. destruct (net_new "umbrella" "" umb_vars fs2) as [v2|e|p] eqn:V2; try discriminate H.
  injection H as T1 P1 T2 P2. exists h, n, v, n2, v2. split; [exact (p_new h _ _ _ _ _ n v [] R1 N1 V1 (fun a (F : In a []) => match F with end))|].
  split; [exact (p_new h _ _ _ _ _ n2 v2 [] R2 N2 V2 (fun a (F : In a []) => match F with end))|].
  split; [|split; [apply all_different_nodup; rewrite T2; reflexivity|auto]]. unfold separate. rewrite T1, P1, T2, P2. cbn. intros a. lia.
Qed.

Print Assumptions C101_new.
Print Assumptions C101_answers.
Print Assumptions C102_solving_writes_nothing.
Print Assumptions C102_results_are_new.
Print Assumptions C102_results_are_separate.
Print Assumptions C102_training_writes_tables.
Print Assumptions C103_separate_partial.
Print Assumptions C103_self_contained_refuted.
Print Assumptions C103_caller_tables_refuted.
