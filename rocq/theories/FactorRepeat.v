(** Rearrange with variables that are given several times or not at all. *)
From Coq Require Import ZArith List Bool Lia Arith PeanoNat ZifyBool ZifyNat Permutation.
From Coq Require String.
Import (notations) String.
From Verif Require Import Num GoBase VarModel Tuples GoFacts SpecFactor FactorFacts FactorProd SpecRepeat.
Import ListNotations.
Open Scope Z_scope.

Section FR.
Context {A : Type} {N : NumOps A}.

Fixpoint write (b : asg) (vars : list variable) (t : list nat) : asg :=
  match vars, t with v :: vars', k :: t' => write (upd b (v_id v) k) vars' t' | _, _ => b end.

Lemma write_last b vars t : length t = length vars -> (forall x, ~ In x (map v_id vars) -> b x = 0%nat) -> forall x, write b vars t x = last_given vars t x.
Proof.
  unfold last_given. intros Hl Hb x.
  assert (G : forall vars t b c, length t = length vars -> (~ In x (map v_id vars) -> b x = c x) -> write b vars t x = fold_left (fun a vk => upd a (v_id (fst vk)) (snd vk)) (combine vars t) c x).
  { clear. induction vars as [|v vars IH]; destruct t as [|k t]; simpl; intros b c Hl Hbc; try lia; auto. apply IH; [lia|]. intros Hx. unfold upd. destruct (Z.eqb_spec x (v_id v)); auto. apply Hbc. intros [E|E]; auto. }
  apply G; auto.
Qed.

Lemma write_other b vars t x : ~ In x (map v_id vars) -> write b vars t x = b x.
Proof.
  revert b t; induction vars as [|v vars IH]; destruct t as [|k t]; simpl; intros Hx; auto. rewrite IH by auto. unfold upd. destruct (Z.eqb_spec x (v_id v)); auto. exfalso; auto.
Qed.

Lemma write_steps F vars indices t b : wf_vars F -> Forall2 (pos_of F) vars indices -> length t = length vars ->
  foldM (fun od '(ij, x) => sset od ij x) (Zs (tof F b)) (combine indices (Zs t)) = Ok (Zs (tof F (write b vars t))).
Proof.
  intros HF Hp. revert t b. induction Hp as [|v ij vars indices (p & -> & Hv) Hp IH]; destruct t as [|k t]; intros b Hl; simpl in Hl; try lia; auto.
  simpl. rewrite sset_ok. 2:{ rewrite Zs_length, tof_length. apply nth_error_Some. congruence. }
  simpl. assert (E : upd_nth (Zs (tof F b)) p (Z.of_nat k) = Zs (tof F (upd b (v_id v) k))).
  { apply nth_error_ext. intros q. rewrite upd_nth_spec. unfold Zs, tof. rewrite !map_length, !nth_error_map. destruct (Nat.eqb_spec p q) as [<-|Hne]; simpl.
    - destruct (Nat.ltb_spec p (length F)) as [|Hge]; [|apply nth_error_None in Hge; congruence]. rewrite Hv. simpl. unfold upd. rewrite Z.eqb_refl. auto.
    - destruct (nth_error F q) as [u|] eqn:Eu; simpl; auto. do 2 f_equal. unfold upd. destruct (Z.eqb_spec (v_id u) (v_id v)) as [Ei|]; auto. exfalso. apply Hne.
      unfold wf_vars in HF. rewrite NoDup_nth_error in HF. apply HF; [rewrite map_length; apply nth_error_Some; congruence|]. rewrite !nth_error_map, Hv, Eu. simpl. congruence. }
  rewrite E. apply IH. lia.
Qed.

Lemma last_range F vars t : wf_vars F -> (forall v, In v vars -> In v F) -> (forall v, In v F -> ~ In v vars -> (0 < v_outcomes v)%nat) -> Forall2 (fun v k => (k < v_outcomes v)%nat) vars t ->
  in_range F (last_given vars t).
Proof.
  intros HF Hs H0 Ht u Hu. unfold last_given.
  assert (G : forall a, (~ In (v_id u) (map v_id vars) -> (a (v_id u) < v_outcomes u)%nat) -> (fold_left (fun a vk => upd a (v_id (fst vk)) (snd vk)) (combine vars t) a (v_id u) < v_outcomes u)%nat).
  { clear H0. induction Ht as [|v k vars t Hk Ht IH]; simpl; intros a Ha; auto. apply IH; [intros; apply Hs; simpl; auto|]. intros Hn. unfold upd. destruct (Z.eqb_spec (v_id u) (v_id v)) as [E|E].
    - replace u with v; auto. assert (Hv : In v F) by (apply Hs; simpl; auto). clear -HF Hu Hv E. unfold wf_vars in HF. induction F as [|w F IH]; simpl in *; [tauto|]. inversion HF; subst.
      destruct Hu as [->|Hu], Hv as [->|Hv]; auto; exfalso; apply H1; [rewrite E|rewrite <- E]; apply in_map; auto.
    - apply Ha. intros [E'|E']; auto. }
  apply G. intros Hn. apply H0; auto. intros Hv. apply Hn. apply in_map. auto.
Qed.

Lemma same_ids old vars full : incl old full -> NoDup (map v_id full) -> map v_id vars = map v_id old -> (forall v, In v vars -> In v full) -> vars = old.
Proof.
  revert vars. induction old as [|a old IH]; destruct vars as [|v vars]; simpl; intros Hi Hnd Hm Hs; try discriminate; auto.
  inversion Hm. f_equal.
  - assert (Hv : In v full) by (apply Hs; auto). assert (Ha : In a full) by (apply Hi; simpl; auto).
    clear - Hv Ha Hnd H0. induction full; simpl in *; [tauto|]. inversion Hnd; subst.
    destruct Hv as [->|Hv], Ha as [->|Ha]; auto.
    + exfalso. apply H2. rewrite H0. apply in_map; auto.
    + exfalso. apply H2. rewrite <- H0. apply in_map; auto.
  - apply IH; auto. intros x Hx. apply Hi. simpl; auto.
Qed.
Definition var_dec (x y : variable) : {x = y} + {x <> y}.
Proof. destruct (var_eqb x y) eqn:E; [left; apply var_eqb_spec; auto|right; intros ->; rewrite var_eqb_refl in E; discriminate]. Defined.
Lemma inb_vars vars t : Forall2 (fun v k => (k < v_outcomes v)%nat) vars t <-> inb (outs vars) t.
Proof. unfold inb, outs. revert t; induction vars; destruct t; simpl; split; intros H; inversion H; subst; constructor; auto; apply IHvars; auto. Qed.

Theorem rearrange_any s (f : factor A) vars : wf_factor f -> (forall v, In v (f_vars f) -> (0 < v_outcomes v)%nat) ->
  length vars = length (f_vars f) -> (forall v, In v vars -> In v (f_vars f)) ->
  exists f', rearrange s f vars = Ok (bump s, f') /\ f_vars f' = vars /\ length (f_data f') = num_cells vars /\
    forall t, Forall2 (fun v k => (k < v_outcomes v)%nat) vars t -> f_get f' (map Z.of_nat t) = get_at f (last_given vars t).
Proof.
  intros Hw H0 Hlen Hsub. pose proof (wf_fits f Hw) as Hfit. destruct Hw as [Hwf Hw].
  destruct (rearrange_indices_spec (f_vars f) vars Hlen Hsub) as (indices & eq & E & Hpos & Heq).
  destruct (list_eq_dec var_dec vars (f_vars f)) as [Ev|Nv].
  - destruct (rearrange_spec s f vars Hfit Hwf) as (d & Er & Hl & Hd); [rewrite Ev; apply Permutation_refl|]. eexists. split; [exact Er|]. split; auto. cbn [f_vars f_data]. split; [rewrite num_cells_prod; auto|].
    intros t Ht. assert (Hr : in_range (f_vars f) (last_given vars t)) by (apply last_range; auto).
    rewrite get_at_fv by auto. change (map Z.of_nat t) with (Zs t).
    assert (Et : tof vars (last_given vars t) = t).
    { assert (Hwv : wf_vars vars) by (rewrite Ev; auto). clear -Ht Hwv. unfold last_given. generalize (fun _ : Z => 0%nat). induction Ht as [|v k vars t Hk Ht IH]; intros b; auto.
      unfold wf_vars in Hwv. simpl in Hwv. inversion Hwv; subst. simpl. f_equal; [|apply IH; auto].
      assert (G : forall a, fold_left (fun a vk => upd a (v_id (fst vk)) (snd vk)) (combine vars t) a (v_id v) = a (v_id v)).
      { clear -H1. revert t. induction vars as [|w vars IH]; destruct t; simpl; intros; auto. simpl in H1. rewrite IH by auto. unfold upd. destruct (Z.eqb_spec (v_id v) (v_id w)); auto. exfalso; auto. }
      rewrite G. unfold upd. rewrite Z.eqb_refl. auto. }
    rewrite <- Et at 1. change (Zs (tof vars (last_given vars t))) with (Zs (tof (f_vars (mkFactor (vs_counter s) vars d)) (last_given vars t))).
    rewrite <- tuple_of_tof. change (f_get ?g (tuple_of (f_vars ?g) ?a)) with (get_at g a). unfold get_at. rewrite tuple_of_tof. unfold f_get, f_index. cbn [f_vars f_data].
    rewrite vars_index_flat by apply tof_length. cbn [gbind]. apply sget_ok. apply Hd. rewrite Ev at 1. auto.
  - assert (eq = false).
    { destruct eq; auto. exfalso. apply Nv. apply (same_ids (f_vars f) vars (f_vars f)); auto. apply incl_refl. apply Heq. auto. }
    subst eq. clear Heq. unfold rearrange.
    assert (Ez : (zlen (f_vars f) =? zlen vars) = true) by (unfold zlen; rewrite Hlen; apply Z.eqb_refl).
    rewrite Ez. simpl negb. cbv iota. rewrite E. cbn [gbind]. rewrite create_factor_none. cbn [gbind f_data f_id].
    set (ns := outs vars). set (d0 := repeat n0 (prod ns)).
    assert (Hd0 : length d0 = prod ns) by apply repeat_length.
    destruct (foldM_inv (fun i '(od, nw, data) =>
       nw = (if (0 <? prod ns)%nat then Zs (tup ns i) else repeat 0 (length vars)) /\
       (exists b, od = Zs (tof (f_vars f) b) /\ forall x, ~ In x (map v_id vars) -> b x = 0%nat) /\
       length data = prod ns /\
       forall j, (j < i)%nat -> nth_error data j = Some (fv f (last_given vars (tup ns j))))
     (fun '(oldIndex, newIndex, data) (i : Z) =>
      let! od := foldM (fun od '(ij, x) => sset od ij x) oldIndex (combine indices newIndex) in
      let! x := f_get f od in
      let! data' := sset data i x in
      let! (newIndex', _) := vars_increment vars newIndex in
      Ok (od, newIndex', data'))
     (zrange 0 (zlen d0))
     (repeat 0 (length (f_vars f)), repeat 0 (length vars), d0))
     as ([[od nw] data] & E' & HI).
    + split; [|split; [|split]]; auto; [| |lia].
      * destruct (Nat.ltb_spec 0 (prod ns)); auto. apply zeros_tup. auto.
      * exists (fun _ => 0%nat). split; auto. clear. unfold Zs, tof. rewrite map_map. induction (f_vars f); simpl; f_equal; auto.
    + intros i [[od nw] data] z Hz (Hnw & (b & -> & Hb) & Hl & Hcell). apply zrange_nth_inv in Hz.
      unfold zlen in Hz. rewrite Hd0 in Hz. destruct Hz as [-> Hi]. rewrite Z.add_0_l.
      assert (Hi' : (i < prod ns)%nat) by lia. clear Hi.
      destruct (Nat.ltb_spec 0 (prod ns)) as [Hposn|]; [|lia].
      set (t := tup ns i) in *. assert (Hin : inb ns t) by (apply tup_inb; auto).
      assert (Hlt : length t = length vars) by (apply inb_length in Hin; unfold ns in Hin; rewrite outs_length in Hin; auto).
      subst nw. rewrite (write_steps (f_vars f) vars indices t b) by auto. cbn [gbind].
      assert (Hwl : tof (f_vars f) (write b vars t) = tof (f_vars f) (last_given vars t)) by (apply tof_ext; intros v Hv; apply write_last; auto).
      assert (Hr : in_range (f_vars f) (last_given vars t)) by (apply last_range; auto; apply inb_vars; auto).
      rewrite Hwl. rewrite f_get_ft; [|auto|apply in_range_inb; auto]. cbn [gbind]. rewrite sset_ok by lia. cbn [gbind].
      unfold t, ns. rewrite vars_increment_tup by auto. cbn [gbind]. eexists; split; [reflexivity|]. simpl.
      split; auto. split; [|split; [rewrite upd_nth_length; auto|]].
      * exists (last_given vars (tup (outs vars) i)). split; auto. intros x Hx. fold ns. fold t. rewrite <- (write_last b vars t) by auto. rewrite write_other by auto. auto.
      * intros j Hj. rewrite upd_nth_spec. destruct (Nat.eqb_spec i j).
        -- subst j. destruct (Nat.ltb_spec i (length data)); [|lia]. auto.
        -- simpl. apply Hcell. lia.
    + rewrite E'. cbn [gbind]. destruct HI as (_ & _ & Hl & Hcell). eexists. split; [reflexivity|]. split; auto. cbn [f_data]. split; [rewrite num_cells_prod; auto|].
      intros t Ht. apply inb_vars in Ht. pose proof (inb_length _ _ Ht) as Hlt. rewrite outs_length in Hlt.
      assert (Hr : in_range (f_vars f) (last_given vars t)) by (apply last_range; auto; apply inb_vars; auto).
      rewrite get_at_fv by auto. change (map Z.of_nat t) with (Zs t). unfold f_get, f_index. cbn [f_vars f_data].
      rewrite vars_index_flat by auto. cbn [gbind]. apply sget_ok. rewrite Hcell.
      * unfold ns. rewrite tup_flat by auto. auto.
      * rewrite zrange_length. unfold zlen. rewrite Hd0, Z.sub_0_r, Nat2Z.id. apply flat_lt. auto.
Qed.
End FR.
