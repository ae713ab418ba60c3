(** Property C125: the slices returned by Row share the memory of their table (ve/factor.go
    Factor.Row, network.go Factor.Row). The vocabulary is in SpecFactor.v, SpecHeap.v and SpecHeapRow.v. *)
From Coq Require Import ZArith QArith Qcanon List Bool String Lia.
From Verif Require Import Num GoBase GoFacts VarModel SpecFactor FactorFacts FactorThms VEModel NetModel SpecNet NetRow TrainModel HeapVarModel HeapSim HeapVEModel HeapVE HeapNetModel
  HeapRowModel SpecHeap SpecHeapRow HeapNet HeapTrain HeapSession HeapRow Props_VE Props_Net Props_Train Props_Heap.
Import ListNotations.
Open Scope string_scope.
Open Scope list_scope.
Open Scope Z_scope.

Section Rows.
Context {A : Type} {N : NumOps A}.

(** The slice that ve.Factor.Row returns holds what the value model says, and taking it writes nothing. *)
Theorem C125_ve_reads : forall (h : heap A) f g indices, read_factor h f = Some g ->
  match h_row f indices h, f_row g indices with
  | (h', Ok p), Ok row => h' = h /\ read_part h p = Some row
  | (h', Panic q), Panic q' => h' = h /\ q = q'
  | _, _ => False
  end.
Proof.
  intros h f g indices H. apply read_factor_view in H. destruct H as (_ & Ev & a & Ea & Ed).
  unfold h_row, f_row, bind, lift. assert (E : f_row_index f indices = f_row_index g indices) by (unfold f_row_index; rewrite Ev; reflexivity). rewrite <- E.
  destruct (f_row_index f indices) as [[i ln]|e|q] eqn:R; cbn [gbind].
  - rewrite (part_of_spec h _ (f_data g)) by (right; exists a; auto). destruct (sslice (f_data g) i (i + ln)) as [row|e|q] eqn:S; auto.
    + split; auto. apply (read_part_spec h _ (f_data g)); auto. right. exists a. auto.
    + unfold sslice in S. destruct (_ || _ || _); discriminate S.
  - exfalso. unfold f_row_index in R. destruct (negb _); [discriminate R|]. destruct (sget (f_vars f) (zlen (f_vars f) - 1)) as [w|e'|q'] eqn:S; cbn [gbind] in R; try discriminate R. unfold sget in S. destruct (_ <? _); [discriminate S|]. destruct (nth_error (f_vars f) _); discriminate S.
  - auto.
Qed.

(** Writing [x] to element [k] of this slice has the effect of [Set] for these indices and [k]: the entry changes, no
    other entry of the factor does, no other array in memory does, and the slice shows the new element. *)
Theorem C125_ve_writes : forall (h : heap A) f g t k x, read_factor h f = Some g -> wf_factor g -> tuple_ok (f_vars g) (t ++ [k]) ->
  exists p row h' g', h_row f t h = (h, Ok p) /\ read_part h p = Some row /\ part_set p k x h = (h', Ok tt) /\ h_set f (t ++ [k]) x h = (h', Ok tt) /\
    read_factor h' f = Some g' /\ f_get g' (t ++ [k]) = Ok x /\ (forall t', tuple_ok (f_vars g) t' -> t' <> t ++ [k] -> f_get g' t' = f_get g t') /\
    (forall b, f_data f <> [b] -> nth_error h' b = nth_error h b) /\ read_part h' p = Some (upd_nth row (Z.to_nat k) x).
Proof.
  intros h f g t k x H Hw Ht. pose proof (read_factor_view _ _ _ H) as (Ei & Ev & a & Ea & Ed).
  assert (exists vs w, f_vars g = vs ++ [w] /\ tuple_ok vs t /\ 0 <= k < Z.of_nat (v_outcomes w)) as (vs & w & Evs & Hvs & Hk).
  { unfold tuple_ok in *. apply Forall2_app_inv_r in Ht. destruct Ht as (vs & ws & H1 & H2 & E). inversion H2 as [|w k' ws' l' Hk H3 E1 E2]; subst. inversion H3; subst. exists vs, w. auto. }
  assert (L : List.length t = List.length vs). { symmetry. clear - Hvs. induction Hvs; simpl; auto. }
  assert (exists i, f_row_index f t = Ok (i, v_out w)) as (i & Ri).
  { unfold f_row_index. rewrite <- Ev, Evs. replace (negb (zlen t =? zlen (vs ++ [w]) - 1)) with false by (unfold zlen; rewrite app_length; simpl; lia).
    replace (zlen (vs ++ [w]) - 1) with (Z.of_nat (List.length vs)) by (unfold zlen; rewrite app_length; simpl; lia).
    rewrite (sget_ok (vs ++ [w]) (List.length vs) w) by (rewrite nth_error_app2, Nat.sub_diag by lia; auto). cbn [gbind]. eauto. }
  pose proof (index_of_row f t k i _ Ri) as Ik.
  pose proof (C125_ve_reads h f g t H) as HR.
  destruct (set_get_spec g (t ++ [k]) x Hw Ht) as (g' & Eg & Evg & Hw' & G1 & G2).
  pose proof Eg as Eset. unfold f_set in Eset. assert (If : f_index g (t ++ [k]) = Ok (i + k)) by (unfold f_index in *; rewrite Ev; exact Ik). rewrite If in Eset. cbn [gbind] in Eset.
  destruct (sset (f_data g) (i + k) x) as [d|e|q] eqn:Es; [|discriminate Eset..]. cbn [gbind] in Eset. injection Eset as <-. pose proof (sset_inv _ _ _ _ Es) as (Hi & ->).
  (* the row exists *)
  assert (exists row, f_row g t = Ok row) as (row & Er).
  { assert (Rg : f_row_index g t = Ok (i, v_out w)) by (unfold f_row_index in *; rewrite Ev; exact Ri). unfold f_row. rewrite Rg. cbn [gbind]. unfold sslice.
    assert (B : forall k', 0 <= k' < Z.of_nat (v_outcomes w) -> 0 <= i + k' < zlen (f_data g)).
    { intros k' Hk'. assert (T : tuple_ok (f_vars g) (t ++ [k'])). { rewrite Evs. apply Forall2_app; auto. }
      destruct (set_get_spec g _ x Hw T) as (g2 & E2 & _). unfold f_set in E2. assert (I2 : f_index g (t ++ [k']) = Ok (i + k')) by (unfold f_index; rewrite Ev; exact (index_of_row f t k' i _ Ri)).
      rewrite I2 in E2. cbn [gbind] in E2. destruct (sset (f_data g) (i + k') x) eqn:E3; [|discriminate E2..]. apply sset_inv in E3. tauto. }
    pose proof (B 0 ltac:(lia)). pose proof (B (Z.of_nat (v_outcomes w) - 1) ltac:(lia)). unfold v_out. destruct (_ || _ || _) eqn:C; [exfalso; lia|]. eauto. }
  rewrite Er in HR. destruct (h_row f t h) as [h0 [p|e|q]] eqn:Ep; try tauto. destruct HR as [-> HR].
  assert (Pp : p = mkPart (f_data f) i (i + v_out w)).
  { unfold h_row, bind, lift in Ep. rewrite Ri in Ep. rewrite (part_of_spec h _ (f_data g)) in Ep by (right; exists a; auto). destruct (sslice _ _ _); inversion Ep. reflexivity. }
  exists p, row, (upd_nth h a (upd_nth (f_data g) (Z.to_nat (i + k)) x)), (mkFactor (f_id g) (f_vars g) (upd_nth (f_data g) (Z.to_nat (i + k)) x)).
  assert (La : (a < List.length h)%nat) by (apply nth_error_Some; congruence).
  split; [reflexivity|]. split; [exact HR|]. split; [|split; [|split; [|split; [exact G1|split; [exact G2|split]]]]].
  - subst p. unfold part_set. cbn [p_of p_lo p_hi]. unfold v_out. replace ((k <? 0) || (i + Z.of_nat (v_outcomes w) - i <=? k)) with false by lia.
    unfold put_elem, bind, load, lift. rewrite Ea. cbn [addr hd ref]. rewrite Ed, Es. reflexivity.
  - unfold h_set, bind, lift. rewrite Ik. unfold put_elem, bind, load, lift. rewrite Ea. cbn [addr hd ref]. rewrite Ed, Es. reflexivity.
  - unfold read_factor, read_slice. rewrite Ea. unfold ref. rewrite upd_nth_same by exact La. rewrite Ei, Ev. reflexivity.
  - intros b Hb. apply upd_nth_other. intros <-. apply Hb. exact Ea.
  - subst p. unfold read_part in *. cbn [p_of p_lo p_hi] in *. rewrite Ea in *. unfold ref, read_slice in *. rewrite upd_nth_same by exact La. rewrite Ed in HR. cbn [option_map] in *. injection HR as <-. f_equal.
    unfold v_out in *. apply nth_error_ext. intros m. replace (i + Z.of_nat (v_outcomes w) - i) with (Z.of_nat (v_outcomes w)) by lia. rewrite Nat2Z.id.
    assert (Hi0 : 0 <= i). { assert (T : tuple_ok (f_vars g) (t ++ [0])) by (rewrite Evs; apply Forall2_app; auto; constructor; [lia|constructor]).
      destruct (set_get_spec g _ x Hw T) as (g2 & E2 & _). unfold f_set in E2. assert (I2 : f_index g (t ++ [0]) = Ok (i + 0)) by (unfold f_index; rewrite Ev; exact (index_of_row f t 0 i _ Ri)).
      rewrite I2 in E2. cbn [gbind] in E2. destruct (sset (f_data g) (i + 0) x) eqn:E3; [|discriminate E2..]. apply sset_inv in E3. lia. }
    rewrite upd_nth_spec. destruct (Nat.lt_ge_cases m (v_outcomes w)) as [Lm|Lm].
    + rewrite !nth_error_firstn', !nth_error_skipn' by auto. rewrite upd_nth_spec. rewrite firstn_length, skipn_length. unfold zlen in Hi.
      assert (LR : List.length (firstn (v_outcomes w) (skipn (Z.to_nat i) (f_data g))) = v_outcomes w).
      { unfold f_row in Er. assert (Rg : f_row_index g t = Ok (i, v_out w)) by (unfold f_row_index in *; rewrite Ev; exact Ri). rewrite Rg in Er. cbn [gbind] in Er. unfold sslice in Er.
        destruct (_ || _ || _) eqn:C; [discriminate Er|]. rewrite !orb_false_iff in C. unfold zlen, v_out in C. rewrite firstn_length, skipn_length. lia. }
      rewrite firstn_length, skipn_length in LR. rewrite LR.
      destruct (Z.to_nat k =? m)%nat eqn:E1, (Z.to_nat (i + k) =? Z.to_nat i + m)%nat eqn:E2; cbn [andb]; auto; try (exfalso; lia).
      replace (Z.to_nat k <? v_outcomes w)%nat with true by lia. replace (Z.to_nat (i + k) <? List.length (f_data g))%nat with true by lia. try replace (m <? v_outcomes w)%nat with true by lia. reflexivity.
    + replace (_ && _) with false by (rewrite firstn_length; lia). assert (E3 : forall l : list A, nth_error (firstn (v_outcomes w) l) m = None) by (intros l; apply nth_error_None; rewrite firstn_length; lia).
      rewrite !E3. reflexivity.
Qed.

(** The slice that bbn.Factor.Row returns holds what the value model says (see C37 for which entries these are). *)
Theorem C125_reads : forall (h : heap A) f g indices, read_nfactor h f = Some g ->
  match h_nf_row f indices h, nf_row g indices with
  | (h', Ok (p, ok)), Ok (row, ok') => h' = h /\ ok = ok' /\ read_part h p = Some row
  | (h', Panic q), Panic q' => h' = h /\ q = q'
  | _, _ => False
  end.
Proof.
  intros h f g indices H. apply read_nfactor_same in H. destruct H as (_ & _ & E1 & E2 & HS).
  unfold h_nf_row, nf_row, bind, lift, ret. assert (E : nf_row_index g indices = nf_row_index f indices) by (unfold nf_row_index; rewrite E1; reflexivity). rewrite E.
  assert (HS' : slice_of (nf_table f) = [] /\ slice_of (nf_table g) = [] \/ exists a, slice_of (nf_table f) = ref a /\ nth_error h a = Some (slice_of (nf_table g))).
  { unfold same_slice in HS. destruct (nf_table f) as [r|], (nf_table g) as [w|]; try tauto. }
  destruct (nf_row_index f indices) as [[i ok]|e|q] eqn:R; cbn [gbind].
  - destruct ok; cbn [negb]; [|auto]. rewrite (part_of_spec h _ _ _ _ HS'), E2. destruct (sslice _ _ _) as [row|e|q] eqn:S; cbn [gbind]; auto.
    + repeat split; auto. eapply read_part_spec; eauto.
    + unfold sslice in S. destruct (_ || _ || _); discriminate S.
  - unfold nf_row_index in R. destruct (negb _); [discriminate R|]. destruct indices; [discriminate R|]. destruct (fold_right _ _ _) as [[? ?]|]; discriminate R.
  - auto.
Qed.

(** Reading element [k] of such a slice gives element [k] of what the slice stands for, also later, and panics if there is none. *)
Theorem C125_elements : forall (h : heap A) p, (exists f indices, h_row f indices h = (h, Ok p)) \/ (exists f indices ok, h_nf_row f indices h = (h, Ok (p, ok))) ->
  forall row (h' : heap A) row', read_part h p = Some row -> read_part h' p = Some row' -> zlen row' = zlen row ->
  forall k, part_get p k h' = (h', sget row' k).
Proof.
  intros h p Hp row h' row' R R' L k.
  assert (B : 0 <= p_lo p <= p_hi p /\ zlen row = p_hi p - p_lo p).
  { assert (P : forall r lo hi (h0 h1 : heap A), part_of r lo hi h0 = (h1, Ok p) -> h1 = h0 /\ p = mkPart r lo hi /\ exists d, load_slice r h0 = (h0, Ok d) /\ 0 <= lo <= hi /\ hi <= zlen d).
    { intros r lo hi h0 h1. unfold part_of, bind, lift, ret. destruct (load_slice r h0) as [h2 [d|e|q]] eqn:El; try discriminate.
      assert (h2 = h0) by (unfold load_slice, load, ret in El; destruct r; injection El; auto). subst h2.
      unfold sslice. destruct (_ || _ || _) eqn:C; [discriminate|]. intros E. injection E as <- <-. repeat split; auto. exists d. rewrite !orb_false_iff in C. repeat split; auto; lia. }
    assert (Q : (p = mkPart [] 0 0) \/ exists r lo hi, part_of r lo hi h = (h, Ok p)).
    { destruct Hp as [(f & t & E)|(f & t & ok & E)].
      - right. unfold h_row, bind, lift in E. destruct (f_row_index f t) as [[i ln]| |]; [|discriminate E..]. eauto.
      - unfold h_nf_row, bind, lift, ret in E. destruct (nf_row_index f t) as [[i b]| |]; [|discriminate E..]. destruct b; cbn [negb] in E; [right|left; congruence].
        destruct (part_of (slice_of (nf_table f)) i (i + nf_columns f) h) as [h1 [p'| |]] eqn:Ep; [|discriminate E..]. injection E as -> -> <-. eauto. }
    destruct Q as [->|(r & lo & hi & Ep)]; [cbn in R; injection R as <-; split; [cbn; lia|reflexivity]|]. destruct (P _ _ _ _ _ Ep) as (_ & -> & d & El & B1 & B2). cbn [p_lo p_hi]. split; auto.
    unfold read_part in R. cbn [p_of p_lo p_hi] in R. unfold load_slice, load in El. destruct r as [|a r].
    - unfold ret in El. injection El as <-. injection R as <-. unfold zlen in *. cbn [List.length] in *. lia.
    - unfold read_slice in R. destruct r as [|b r]; [|discriminate R]. cbn [addr hd] in El. destruct (nth_error h a) as [d'|]; [|discriminate El]. injection El as ->. cbn [option_map] in R. injection R as <-.
      unfold zlen in *. rewrite firstn_length, skipn_length. lia. }
  destruct B as [B1 B2]. unfold part_get, lift. unfold read_part in R'. destruct (p_of p) as [|a r] eqn:Eo.
  - injection R' as <-. unfold zlen in L. cbn [List.length] in L. replace ((k <? 0) || (p_hi p - p_lo p <=? k)) with true by (unfold zlen in B2; lia). unfold sget. destruct (k <? 0); auto. destruct (Z.to_nat k); reflexivity.
  - unfold read_slice in R'. destruct r as [|b r]; [|discriminate R']. destruct (nth_error h' a) as [d|] eqn:Ed; [|discriminate R']. cbn [option_map] in R'. injection R' as <-.
    unfold sget at 1. destruct (Z.ltb_spec k 0) as [K|K]; [reflexivity|]. destruct (Z.leb_spec (p_hi p - p_lo p) k) as [K'|K']; cbn [orb].
    + rewrite (proj2 (nth_error_None _ _)); auto. rewrite firstn_length. lia.
    + cbn [addr hd]. unfold get_elem, bind, load, lift. rewrite Ed. unfold sget. destruct (Z.ltb_spec (p_lo p + k) 0); [lia|]. f_equal.
      rewrite nth_error_firstn' by lia. rewrite nth_error_skipn'. replace (Z.to_nat (p_lo p) + Z.to_nat k)%nat with (Z.to_nat (p_lo p + k)) by lia. destruct (Nat.ltb_spec (Z.to_nat k) (Z.to_nat (p_hi p - p_lo p))); [reflexivity|lia].
Qed.

(** A program may write to rows of the factors it gave to New at any time, also after solving. From then on, all
    methods return what they return for a network that has these entries in its tables. *)
Theorem C125_answers : forall sc (h : heap A) n v mine rq rq', editor h n v mine -> positional sc -> read_request h rq = Some rq' ->
  (is_training rq = true -> NoDup (tables n)) ->
  let '(h', (m, r)) := h_serve sc n rq h in
  let '(v', r') := serve sc v rq' in
  same_answer h' r r'.
Proof.
  intros sc h n v mine rq rq' HP Hsc HR HT. destruct (editor_inv _ _ _ _ HP) as (Hn & HD & _). destruct (is_training rq) eqn:E.
  - destruct rq; try discriminate E. injection HR as <-. specialize (HT eq_refl). rewrite (tables_arrays _ _ _ Hn) in HT.
    pose proof (train_ok sc h n v samples Hn HT HD) as HS. destruct (h_serve sc n _ h) as [h' [m r]], (serve sc v _) as [v' r']. apply HS.
  - pose proof (serve_ok sc h n v rq rq' Hsc Hn HR E) as (_ & _ & _ & HS & _). destruct (h_serve sc n _ h) as [h' [m r]], (serve sc v _) as [v' r']. exact HS.
Qed.

(** *** Concrete programs: a state as in Props_Heap, and a write to element [k] of a row of the [j]-th factor *)
Definition edit (o : option (@state A)) (j : nat) (indices : list Z) (k : Z) (x : A) : option (@state A) :=
  match o with
  | Some (h, n, v, mine) =>
      match nth_error (n_factors n) j with
      | Some f => match h_nf_row f indices h with
                  | (h1, Ok (p, true)) => match part_set p k x h1 with
                                          | (h2, Ok tt) => if all_different (tables n) then Some (h2, n, overwritten v j (row_number (nf_outcomes f) indices + k) x, mine) else None
                                          | _ => None
                                          end
                  | _ => None
                  end
      | None => None
      end
  | None => None
  end.
Definition is_editor (x : state) : Prop := let '(h, n, v, mine) := x in editor h n v mine.
Lemma edit_editor o j indices k x y : (forall z, o = Some z -> is_editor z) -> edit o j indices k x = Some y -> is_editor y.
Proof.
  intros Ho. unfold edit. destruct o as [[[[h n] v] mine]|]; [|discriminate]. specialize (Ho _ eq_refl). destruct (nth_error (n_factors n) j) as [f|] eqn:Ef; [|discriminate].
  destruct (h_nf_row f indices h) as [h1 [[p [|]]|e|q]] eqn:E1; try discriminate. destruct (part_set p k x h1) as [h2 [[]|e|q]] eqn:E2; try discriminate.
  destruct (all_different (tables n)) eqn:Ed; [|discriminate]. intros E. injection E as <-. cbn. eapply e_row; eauto. apply all_different_nodup. exact Ed.
Qed.
End Rows.

(** The weather is asked, then sun and rain are given the same weight through the row of the table, then it is asked again. *)
Definition ask_weather : request xnum nat := RQuery [("forecast", "sunny")] ["weather"] false.
Definition umb_edited : option state := edit (from "umbrella" umb_vars umb_factors [Call ask_weather]) 0 [] 0 (Fin (Q2Qc 30)).
Example C125_example : exists h n v mine, editor h n v mine /\ NoDup (tables n) /\
  match n_factors v with g :: _ => option_map (map xshow) (nf_table g) | [] => None end = Some [SFin (30#1); SFin (30#1)] /\
  shown_call (from "umbrella" umb_vars umb_factors [Call ask_weather]) ask_weather = Some [("weather", [SFin (98#107); SFin (9#107)]); ("factor", [SFin (49#100); SFin (9#200)])] /\
  shown_call (Some (h, n, v, mine)) ask_weather = Some [("weather", [SFin (14#17); SFin (3#17)]); ("factor", [SFin (7#20); SFin (3#40)])].
Proof.
  assert (G : forall o : option state, (forall x, o = Some x -> is_editor x) -> match o with
    | Some (h, n, v, mine) => Some (all_different (tables n), match n_factors v with g :: _ => option_map (map xshow) (nf_table g) | [] => None end, shown_call (Some (h, n, v, mine)) ask_weather)
    | None => None end = Some (true, Some [SFin (30#1); SFin (30#1)], Some [("weather", [SFin (14#17); SFin (3#17)]); ("factor", [SFin (7#20); SFin (3#40)])]) ->
    exists h n v mine, editor h n v mine /\ NoDup (tables n) /\ match n_factors v with g :: _ => option_map (map xshow) (nf_table g) | [] => None end = Some [SFin (30#1); SFin (30#1)] /\
      shown_call (Some (h, n, v, mine)) ask_weather = Some [("weather", [SFin (14#17); SFin (3#17)]); ("factor", [SFin (7#20); SFin (3#40)])]).
  { intros [[[[h n] v] mine]|] Ho E; [|discriminate E]. injection E as E1 E2 E3. exists h, n, v, mine. split; [exact (Ho _ eq_refl)|]. split; [apply all_different_nodup; exact E1|]. auto. }
  destruct (G umb_edited) as (h & n & v & mine & H1 & H2 & H3 & H4).
  - intros x. unfold umb_edited. apply edit_editor. intros [[[h n] v] mine] Hz. apply from_program in Hz. apply e_program. exact Hz.
  - vm_compute. reflexivity.
  - exists h, n, v, mine. split; [exact H1|]. split; [exact H2|]. split; [exact H3|]. split; [vm_compute; reflexivity|exact H4].
Qed.

(** A factor in memory whose row is changed: entry (1, 2) of a table with two and three outcomes. *)
Definition row_heap : heap xnum := [lit [1#1; 2#1; 3#1; 4#1; 5#1; 6#1]].
Definition row_vars : list variable := [mkVar 0 0 2 Chance; mkVar 1 1 3 Chance].
Definition row_factor : factor nat := mkFactor 0 row_vars (ref 0).
Example C125_ve_hypotheses : exists g, read_factor row_heap row_factor = Some g /\ wf_factor g /\ tuple_ok (f_vars g) ([1] ++ [2]).
Proof.
  exists (mkFactor 0 row_vars (lit [1#1; 2#1; 3#1; 4#1; 5#1; 6#1])). split; [reflexivity|]. split.
  - split; [|reflexivity]. repeat constructor; cbn; intuition discriminate.
  - repeat constructor; cbn; lia.
Qed.
Example C125_ve_example : match h_row row_factor [1] row_heap with
  | (h, Ok p) => match part_set p 2 (Fin (Q2Qc 9)) h with (h', Ok tt) => Some (option_map (map xshow) (read_part h p), option_map (map xshow) (nth_error h' 0), option_map (map xshow) (read_part h' p)) | _ => None end
  | _ => None
  end = Some (Some [SFin (4#1); SFin (5#1); SFin (6#1)], Some [SFin (1#1); SFin (2#1); SFin (3#1); SFin (4#1); SFin (5#1); SFin (9#1)], Some [SFin (4#1); SFin (5#1); SFin (9#1)]).
Proof. vm_compute. reflexivity. Qed.

Example C125_elements_example : match h_row row_factor [1] row_heap with
  | (h, Ok p) => map (fun k => match part_get p k h with (_, Ok x) => Some (xshow x) | _ => None end) [-1; 0; 1; 2; 3]
  | _ => []
  end = [None; Some (SFin (4#1)); Some (SFin (5#1)); Some (SFin (6#1)); None].
Proof. vm_compute. reflexivity. Qed.
(** C37 again: a write to the row for rain changes the row for sun. The table has the rows (70, 20, 10) for sun and
    (15, 25, 60) for rain. *)
Theorem C37_write_refuted :
  match edit (from "umbrella" umb_vars umb_factors []) 1 [1] 0 (Fin (Q2Qc 99)) with
  | Some (h, n, v, _) => match nth_error (n_factors v) 1 with
      | Some g => Some (nf_for g, nf_given g, option_map (map xshow) (nf_table g), map (option_map (map xshow)) (map (nth_error h) (match nth_error (n_factors n) 1 with Some f => table_of f | None => [] end)))
      | None => None end
  | None => None
  end = Some ("forecast", ["weather"], Some [SFin (70#1); SFin (99#1); SFin (10#1); SFin (15#1); SFin (25#1); SFin (60#1)],
    [Some [SFin (70#1); SFin (99#1); SFin (10#1); SFin (15#1); SFin (25#1); SFin (60#1)]]).
Proof. vm_compute. reflexivity. Qed.

Print Assumptions C125_ve_reads.
Print Assumptions C125_ve_writes.
Print Assumptions C125_reads.
Print Assumptions C125_elements.
Print Assumptions C125_answers.
Print Assumptions C37_write_refuted.
