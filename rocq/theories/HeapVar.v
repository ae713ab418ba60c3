(** The operations on factors with arrays in memory do what VarModel says, and write only to
    the array of their result. *)
From Coq Require Import ZArith List Bool String Lia.
From Verif Require Import Num GoBase VarModel HeapVarModel HeapSim.
Import ListNotations.
Open Scope Z_scope.

Section HeapVar.
Context {A : Type} {N : NumOps A}.
Notation heap := (heap A).
Notation act := (act A).

Ltac ends := (apply sim_fail_p || apply sim_fail_e); (apply old_refl || apply old_app || assumption).
Ltac pure_step := eapply sim_bind; [apply sim_lift; (apply old_refl || apply old_app || assumption)|];
  let h := fresh "hh" in let x := fresh "xx" in let y := fresh "yy" in let Ho := fresh "oo" in intros h x y Ho [-> ->]; clear Ho.

(** What holds in a loop that fills the array of the new factor [fn] *)
Definition filling (b : heap) (fn : factor nat) (h : heap) (g : factor A) : Prop :=
  f_id g = f_id fn /\ f_vars g = f_vars fn /\ h = b ++ [f_data g].

Lemma sim_restrict b s f g v o : view b f g -> sim b b (h_restrict s f v o) (restrict s g v o) (made b).
Proof.
  intros (Hi & Hv & a & Ea & Ed). unfold h_restrict, restrict. rewrite Hv, Ea. unfold addr, ref. cbn [hd].
  destruct ((o <? 0) || (v_out v <=? o)); [ends|]. pure_step.
  destruct (scan_vars (f_vars f) (v_id v)) as [idx newVars]. destruct (idx <? 0); [ends|].
  eapply sim_bind; [apply sim_create_nil|]. intros h [s1 fn] [s2 gn] Ho ((Hs & Hfi & Hfv & Hfa & Hh) & Hfw). cbn [fst snd] in *. subst s2 h.
  eapply sim_left; [apply len_ok; eapply old_nth; eauto|].
  eapply sim_bind with (R := fun h '(p, q) '(p', q', g') => p = p' /\ q = q' /\ filling b fn h g').
  - apply (sim_fold (fun i x => sget (f_data g) i = Ok x)); [|apply positions_elements|assumption|repeat split; auto].
    intros h [p q] [[p' q'] g'] i x Ho' (-> & -> & Hi' & Hv' & ->) G.
    eapply sim_left; [eapply get_ok; [eapply old_nth; [apply old_app|exact Ed]|exact G]|].
    pure_step.
    eapply sim_bind with (R := fun h nw '(nw', g'') => nw = nw' /\ filling b fn h g'').
    + match goal with |- context [if ?c then _ else _] => destruct c end.
      * pure_step. eapply sim_bind; [apply sim_h_set; [symmetry; eassumption || (now rewrite Hv')|exact Hfa|reflexivity]|].
        intros h u g'' Ho'' (H1 & H2 & ->). apply sim_ret; [apply old_app|]. split; auto. repeat split; congruence.
      * apply sim_ret; [apply old_app|]. split; auto. repeat split; congruence.
    + intros h nw [nw' g''] Ho'' (-> & H1 & H2 & ->).
      eapply sim_bind; [apply sim_lift, old_app|]. intros h [r c] [r' c'] _ (-> & E). injection E as -> ->.
      apply sim_ret; [apply old_app|]. repeat split; auto.
  - intros h [p q] [[p' q'] g'] Ho' (-> & -> & Hi' & Hv' & ->). apply sim_ret; [apply old_app|]. unfold made. cbn [fst snd]. auto.
Qed.

Lemma sim_sum_out b s f g v : view b f g -> sim b b (h_sum_out s f v) (sum_out s g v) (made b).
Proof.
  intros (Hi & Hv & a & Ea & Ed). unfold h_sum_out, sum_out. rewrite Hv, Ea. unfold addr, ref. cbn [hd].
  pure_step.
  destruct (scan_vars (f_vars f) (v_id v)) as [idx newVars]. destruct (idx <? 0); [ends|].
  eapply sim_bind; [apply sim_create_nil|]. intros h [s1 fn] [s2 gn] Ho ((Hs & Hfi & Hfv & Hfa & Hh) & Hfw). cbn [fst snd] in *. subst s2 h.
  eapply sim_left; [apply len_ok; eapply old_nth; eauto|].
  eapply sim_bind with (R := fun h '(p, q) '(p', q', g') => p = p' /\ q = q' /\ filling b fn h g').
  - apply (sim_fold (fun i x => sget (f_data g) i = Ok x)); [|apply positions_elements|assumption|repeat split; auto].
    intros h [p q] [[p' q'] g'] i x Ho' (-> & -> & Hi' & Hv' & ->) G.
    eapply sim_left; [eapply get_ok; [eapply old_nth; [apply old_app|exact Ed]|exact G]|].
    rewrite Hfa. unfold ref. cbn [hd].
    pure_step. unfold f_index. rewrite <- Hv'. pure_step.
    eapply sim_bind; [apply sim_get; [apply old_app|apply nth_last]|]. intros h y y' _ (-> & ->).
    eapply sim_bind; [apply sim_put|]. intros h u d Ho'' ->.
    eapply sim_bind; [apply sim_lift, old_app|]. intros h [r c] [r' c'] _ (-> & E). injection E as -> ->.
    apply sim_ret; [apply old_app|]. repeat split; auto.
  - intros h [p q] [[p' q'] g'] Ho' (-> & -> & Hi' & Hv' & ->). apply sim_ret; [apply old_app|]. unfold made. cbn [fst snd]. auto.
Qed.

Lemma sim_policy b s f g v : view b f g -> sim b b (h_policy s f v) (policy s g v) (made b).
Proof.
  intros HV. pose proof HV as (Hi & Hv & a & Ea & Ed). unfold h_policy, policy. rewrite Hv, Ea. unfold addr, ref. cbn [hd].
  destruct (scan_vars (f_vars f) (v_id v)) as [idx newVars]. destruct (idx <? 0); [ends|].
  pure_step.
  match goal with |- context [newVars ++ [?d]] => set (dv := d) end. clearbody dv.
  eapply sim_bind; [apply sim_create_nil|]. intros h [s1 fn] [s2 gn] Ho ((Hs & Hfi & Hfv & Hfa & Hh) & Hfw). cbn [fst snd] in *. subst s2 h.
  destruct (v_out dv =? 0); [ends|].
  eapply sim_left; [apply len_ok; eapply old_nth; eauto|].
  eapply sim_bind with (R := fun h '(p, q) '(p', q', g') => p = p' /\ q = q' /\ filling b fn h g').
  - apply sim_fold_eq; [|assumption|repeat split; auto].
    intros h [p q] [[p' q'] g'] row Ho' (-> & -> & Hi' & Hv' & ->).
    unfold f_outcomes. rewrite <- Hv'. pure_step.
    eapply sim_bind with (R := fun h x y => x = y /\ h = b ++ [f_data g']).
    + apply sim_fold_eq; [|apply old_app|auto].
      intros h [[od nw] rd] t c Ho'' (<- & ->). pure_step. pure_step.
      eapply sim_bind; [apply sim_h_get; [apply old_app|eapply view_old; [apply old_app|exact HV]]|]. intros h x x' _ (-> & ->).
      apply sim_ret; [apply old_app|]. auto.
    + intros h [[od nw] rd] t Ho'' (<- & ->).
      destruct (zlen (max_indices rd) =? 0); [ends|].
      eapply sim_bind with (R := fun h nw '(nw', g'') => nw = nw' /\ filling b fn h g'').
      * apply sim_fold_eq; [|apply old_app|repeat split; auto].
        intros h t [t' g''] i _ (-> & H1 & H2 & ->). pure_step.
        eapply sim_bind; [apply sim_h_set; [congruence|exact Hfa|reflexivity]|].
        intros h u g3 _ (H3 & H4 & ->). apply sim_ret; [apply old_app|]. repeat split; congruence.
      * intros h t [t' g''] _ (-> & H1 & H2 & ->). apply sim_ret; [apply old_app|]. repeat split; auto.
  - intros h [p q] [[p' q'] g'] Ho' (-> & -> & Hi' & Hv' & ->). apply sim_ret; [apply old_app|]. unfold made. cbn [fst snd]. auto.
Qed.

Lemma sim_rearrange b s f g vars : view b f g -> sim b b (h_rearrange s f vars) (rearrange s g vars) (made b).
Proof.
  intros HV. pose proof HV as (Hi & Hv & a & Ea & Ed). unfold h_rearrange, rearrange. rewrite Hv.
  destruct (negb (zlen (f_vars f) =? zlen vars)); [ends|].
  eapply sim_bind; [apply sim_lift, old_refl|]. intros h [ind eq] [ind' eq'] _ (-> & E). injection E as -> ->.
  destruct eq'.
  { rewrite Ea. unfold addr, ref. cbn [hd]. now apply sim_create_copy. }
  eapply sim_bind; [apply sim_create_nil|]. intros h [s1 fn] [s2 gn] Ho ((Hs & Hfi & Hfv & Hfa & Hh) & Hfw). cbn [fst snd] in *. subst s2 h.
  rewrite Hfa. unfold addr, ref. cbn [hd].
  eapply sim_left; [apply len_ok, nth_last|].
  eapply sim_bind with (R := fun h '(p, q) '(p', q', d) => p = p' /\ q = q' /\ h = b ++ [d]).
  - apply sim_fold_eq; [|assumption|repeat split; auto].
    intros h [p q] [[p' q'] d] i Ho' (-> & -> & ->).
    pure_step. eapply sim_bind; [apply sim_h_get; [apply old_app|eapply view_old; [apply old_app|exact HV]]|]. intros h x x' _ (-> & ->).
    eapply sim_bind; [apply sim_put|]. intros h u d' _ ->.
    eapply sim_bind; [apply sim_lift, old_app|]. intros h [r c] [r' c'] _ (-> & E). injection E as -> ->.
    apply sim_ret; [apply old_app|]. auto.
  - intros h [p q] [[p' q'] d] Ho' (-> & -> & ->). apply sim_ret; [apply old_app|]. unfold made. cbn [fst snd].
    repeat split; auto.
Qed.

(** Product and Sum *)
Lemma view_fold (h : heap) fs gs : Forall2 (view h) fs gs -> map f_vars gs = map f_vars fs.
Proof. induction 1 as [|f g fs gs (Hi & Hv & _) _ IH]; [reflexivity|]. cbn [map]. now rewrite Hv, IH. Qed.

Lemma union_maps_view (h : heap) fs gs : Forall2 (view h) fs gs -> union_maps gs = union_maps fs.
Proof.
  intros H. unfold union_maps. generalize (@nil variable, @nil (list Z)).
  induction H as [|f g fs gs (Hi & Hv & _) _ IH]; intros [nv ms]; cbn [fold_left]; [reflexivity|]. cbv beta iota. now rewrite Hv, IH.
Qed.

Lemma views_old (b h : heap) fs gs : old b h -> Forall2 (view b) fs gs -> Forall2 (view h) fs gs.
Proof. intros Ho H. induction H; constructor; auto. eapply view_old; eauto. Qed.

Lemma sim_combine op init b s fs gs : Forall2 (view b) fs gs ->
  sim b b (h_combine_factors op init s fs) (combine_factors op init s gs) (made b).
Proof.
  intros HV. unfold h_combine_factors, combine_factors. rewrite (union_maps_view _ _ _ HV).
  destruct (union_maps fs) as [newVars maps].
  eapply sim_bind; [apply sim_create_nil|]. intros h [s1 fn] [s2 gn] Ho ((Hs & Hfi & Hfv & Hfa & Hh) & Hfw). cbn [fst snd] in *. subst s2 h.
  rewrite Hfa. unfold addr, ref. cbn [hd].
  eapply sim_left; [apply len_ok, nth_last|].
  eapply sim_bind with (R := fun h p '(p', d) => p = p' /\ h = b ++ [d]).
  - apply sim_fold_eq; [|assumption|repeat split; auto].
    intros h p [p' d] i Ho' (-> & ->).
    eapply sim_bind with (R := fun h x y => x = y /\ h = b ++ [d]).
    + apply (sim_fold (fun x y => fst x = fst y /\ view b (snd x) (snd y))); [| |apply old_app|auto].
      * intros h acc acc' [m f] [m' g] _ (-> & ->) (Hm & HVf). cbn [fst snd] in *. subst m'.
        pure_step. eapply sim_bind; [apply sim_h_get; [apply old_app|eapply view_old; [apply old_app|exact HVf]]|]. intros h x x' _ (-> & ->).
        apply sim_ret; [apply old_app|]. auto.
      * clear - HV. revert maps. induction HV as [|f g fs gs H HV IH]; intros [|m maps]; cbn [combine]; constructor; auto.
    + intros h acc acc' _ (-> & ->).
      eapply sim_bind; [apply sim_put|]. intros h u d' _ ->.
      eapply sim_bind; [apply sim_lift, old_app|]. intros h [r c] [r' c'] _ (-> & E). injection E as -> ->.
      apply sim_ret; [apply old_app|]. auto.
  - intros h p [p' d] Ho' (-> & ->). apply sim_ret; [apply old_app|]. unfold made. cbn [fst snd f_id f_vars f_data].
    repeat split; auto.
Qed.

Lemma sim_product b s fs gs : Forall2 (view b) fs gs -> sim b b (h_product s fs) (product s gs) (made b).
Proof.
  intros HV. unfold h_product, product. destruct HV as [|f g fs gs HVf [|f' g' fs' gs' HVf' HV]]; [apply sim_combine; constructor| |].
  - destruct HVf as (Hi & Hv & a & Ea & Ed). rewrite Ea, Hv. unfold addr, ref. cbn [hd]. now apply sim_create_copy.
  - apply sim_combine. auto.
Qed.

Lemma sim_sum b s fs gs : Forall2 (view b) fs gs -> sim b b (h_sum s fs) (sum s gs) (made b).
Proof.
  intros HV. unfold h_sum, sum. destruct HV as [|f g fs gs HVf [|f' g' fs' gs' HVf' HV]]; [apply sim_combine; constructor| |].
  - destruct HVf as (Hi & Hv & a & Ea & Ed). rewrite Ea, Hv. unfold addr, ref. cbn [hd]. now apply sim_create_copy.
  - apply sim_combine. auto.
Qed.

Lemma sim_marginal b s f g v : view b f g -> sim b b (h_marginal s f v) (marginal s g v) (made b).
Proof.
  intros (Hi & Hv & a & Ea & Ed). unfold h_marginal, marginal. rewrite Hv, Ea. unfold addr, ref. cbn [hd].
  destruct (index_func (fun u => v_id u =? v_id v) (f_vars f) <? 0); [ends|].
  eapply sim_bind; [apply sim_create_nil|]. intros h [s1 fn] [s2 gn] Ho ((Hs & Hfi & Hfv & Hfa & Hh) & Hfw). cbn [fst snd] in *. subst s2 h.
  eapply sim_left; [apply len_ok; eapply old_nth; eauto|].
  eapply sim_bind with (R := fun h p '(p', d) => p = p' /\ h = b ++ [d]).
  - apply (sim_fold (fun i x => sget (f_data g) i = Ok x)); [|apply positions_elements|assumption|repeat split; auto].
    intros h p [p' d] i x Ho' (-> & ->) G.
    eapply sim_left; [eapply get_ok; [eapply old_nth; [apply old_app|exact Ed]|exact G]|].
    rewrite Hfa. unfold ref. cbn [hd].
    pure_step. eapply sim_bind; [apply sim_get; [apply old_app|apply nth_last]|]. intros h y y' _ (-> & ->).
    eapply sim_bind; [apply sim_put|]. intros h u d' Ho'' ->.
    eapply sim_bind; [apply sim_lift, old_app|]. intros h [r c] [r' c'] _ (-> & E). injection E as -> ->.
    apply sim_ret; [apply old_app|]. auto.
  - intros h p [p' d] Ho' (-> & ->). apply sim_ret; [apply old_app|]. unfold made. cbn [fst snd f_id f_vars f_data]. auto.
Qed.

(** The first two steps of Normalize and Invert *)
Lemma sim_copy_factor {Y} b s f g (k : vstate * factor nat -> act (vstate * factor nat)) (k' : vstate * factor A -> gores Y) (R : heap -> vstate * factor nat -> Y -> Prop) : view b f g ->
  (forall h x y, old b h -> made b h x y -> sim b h (k x) (k' y) R) ->
  sim b b (do! a := copy_of (addr (f_data f)) in do! x := h_create_factor s (f_vars f) (Some (ref a)) in k x)
    (let! y := create_factor s (f_vars g) (Some (f_data g)) in k' y) R.
Proof.
  intros (Hi & Hv & a & Ea & Ed) K. rewrite Hv, Ea. unfold addr, ref at 1. cbn [hd].
  pose proof (sim_create_copy b a (f_data g) s (f_vars f) Ed) as C.
  enough (sim b b (do! x := (do! a := copy_of a in h_create_factor s (f_vars f) (Some (ref a))) in k x)
    (let! y := create_factor s (f_vars f) (Some (f_data g)) in k' y) R) as E.
  { unfold sim, bind in E |- *. destruct (copy_of a b) as [h [x|e|p]]; exact E. }
  eapply sim_bind; [exact C|exact K].
Qed.

Lemma sim_normalize b s f g : view b f g -> sim b b (h_normalize s f) (normalize s g) (made b).
Proof.
  intros HV. unfold h_normalize, normalize.
  apply sim_copy_factor; [exact HV|]. intros h [s1 fn] [s2 gn] Ho (Hs & Hfi & Hfv & Hfa & Hh). cbn [fst snd] in *. subst s2 h.
  rewrite Hfa. unfold addr, ref. cbn [hd].
  eapply sim_left; [apply len_ok, nth_last|].
  eapply sim_left; [apply loop_sum, nth_last|].
  eapply sim_left; [apply (loop_map b (fun x => ndiv x _))|].
  apply sim_ret; [apply old_app|]. unfold made. cbn [fst snd f_id f_vars f_data]. auto.
Qed.

Lemma sim_invert b s f g : view b f g -> sim b b (h_invert s f) (invert s g) (made b).
Proof.
  intros HV. unfold h_invert, invert.
  apply sim_copy_factor; [exact HV|]. intros h [s1 fn] [s2 gn] Ho (Hs & Hfi & Hfv & Hfa & Hh). cbn [fst snd] in *. subst s2 h.
  rewrite Hfa. unfold addr, ref. cbn [hd].
  eapply sim_left; [apply len_ok, nth_last|].
  eapply sim_left; [apply (loop_map b (fun x => ndiv n1 x))|].
  apply sim_ret; [apply old_app|]. unfold made. cbn [fst snd f_id f_vars f_data]. auto.
Qed.

Lemma sim_normalize_for b s f g v : view b f g -> sim b b (h_normalize_for s f v) (normalize_for s g v) (made b).
Proof.
  intros HV. pose proof HV as (Hi & Hv & _). unfold h_normalize_for, normalize_for. rewrite Hv.
  destruct (index_func (fun u => v_id u =? v_id v) (f_vars f) <? 0); [ends|]. pure_step.
  eapply sim_bind; [apply sim_rearrange, HV|]. intros h [s1 fn] [s2 gn] Ho (Hs & Hfi & Hfv & Hfa & Hh). cbn [fst snd] in *. subst s2 h.
  destruct (v_out v =? 0); [ends|]. rewrite Hfa. unfold addr, ref. cbn [hd].
  eapply sim_left; [apply len_ok, nth_last|].
  eapply sim_bind with (R := fun h (_ : unit) d => h = b ++ [d]).
  - apply sim_fold_eq; [|assumption|auto]. intros h u d i _ ->.
    eapply sim_bind with (R := fun h x y => x = y /\ h = b ++ [d]).
    + apply sim_fold_eq; [|apply old_app|auto]. intros h x y j _ (-> & ->).
      eapply sim_bind; [apply sim_get; [apply old_app|apply nth_last]|]. intros h z z' _ (-> & ->).
      apply sim_ret; [apply old_app|auto].
    + intros h x y _ (-> & ->). destruct (neqb y n0); [apply sim_ret; [apply old_app|auto]|].
      apply sim_fold_eq; [|apply old_app|auto]. intros h u' d' j _ ->.
      eapply sim_bind; [apply sim_get; [apply old_app|apply nth_last]|]. intros h z z' _ (-> & ->). apply sim_put.
  - intros h u d _ ->. apply sim_ret; [apply old_app|]. unfold made. cbn [fst snd f_id f_vars f_data]. auto.
Qed.

End HeapVar.
