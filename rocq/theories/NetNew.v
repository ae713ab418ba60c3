(** The constructor of networks. *)
From Coq Require Import ZArith List Bool String Lia Permutation.
From Verif Require Import Num GoBase VarModel GoFacts SpecFactor VEModel SpecVE NetModel SpecNet NetVars.
Import ListNotations.
Open Scope string_scope.
Open Scope list_scope.
Open Scope Z_scope.

Lemma sset_map_get {V} (m : list (string * V)) k v x : sget_map (sset_map m k v) x = if String.eqb x k then Some v else sget_map m x.
Proof.
  induction m as [|[k' v'] m IH]; simpl; auto. destruct (String.eqb k k') eqn:E; simpl.
  - apply String.eqb_eq in E. subst k'. destruct (String.eqb x k); auto.
  - destruct (String.eqb x k') eqn:E'; auto. apply String.eqb_eq in E'. subst k'.
    destruct (String.eqb x k) eqn:E2; auto. apply String.eqb_eq in E2. subst. rewrite String.eqb_refl in E. discriminate.
Qed.

Lemma var_named_app l l' x : var_named (l ++ l') x = match var_named l x with Some v => Some v | None => var_named l' x end.
Proof. unfold var_named. induction l; simpl; auto. destruct (String.eqb (nv_name a) x); auto. Qed.

Lemma var_named_none l x : var_named l x = None <-> ~ In x (map nv_name l).
Proof.
  unfold var_named. split.
  - intros H Hin. apply in_map_iff in Hin. destruct Hin as (v & <- & Hin). apply (find_none _ _ H) in Hin. rewrite String.eqb_refl in Hin. discriminate.
  - intros H. destruct (find _ l) eqn:E; auto. apply find_some in E. destruct E as [E1 E2]. apply String.eqb_eq in E2. exfalso. apply H. rewrite <- E2. apply in_map. auto.
Qed.

Lemma var_named_some l x v : var_named l x = Some v -> In v l /\ nv_name v = x.
Proof. intros H. apply find_some in H. destruct H as [H1 H2]. apply String.eqb_eq in H2. auto. Qed.

Lemma var_named_in' l v : NoDup (map nv_name l) -> In v l -> var_named l (nv_name v) = Some v.
Proof.
  intros Hd Hin. induction l as [|u l IH]; [destruct Hin|]. simpl in Hd. inversion Hd; subst. unfold var_named in *. simpl. destruct Hin as [->|Hin].
  - rewrite String.eqb_refl. auto.
  - destruct (String.eqb_spec (nv_name u) (nv_name v)); auto. exfalso. apply H1. rewrite e. apply in_map. auto.
Qed.

Definition names_of (m : list (string * nvar)) (vars : list nvar) : Prop := forall x, sget_map m x = var_named vars x.

Lemma collect_names_from L : forall m done, names_of m done -> NoDup (map nv_name done) ->
  (exists m', foldM (fun m v => if has_key m (nv_name v) then Err (EMsg "duplicate variable name")
    else Ok (sset_map m (nv_name v) v)) m L = Ok m' /\ names_of m' (done ++ L) /\ NoDup (map nv_name (done ++ L))) \/
  (exists e, foldM (fun m v => if has_key m (nv_name v) then Err (EMsg "duplicate variable name")
    else Ok (sset_map m (nv_name v) v)) m L = Err e /\ ~ NoDup (map nv_name (done ++ L))).
Proof.
  induction L as [|v L IH]; intros m done Hm Hd.
  - left. exists m. rewrite app_nil_r. auto.
  - cbn [foldM]. unfold has_key. rewrite (Hm (nv_name v)). destruct (var_named done (nv_name v)) as [u|] eqn:E.
    + right. simpl. eexists. split; [reflexivity|]. apply var_named_some in E. destruct E as [Hin Hn]. rewrite map_app. simpl.
      intros Hnd. apply NoDup_remove_2 in Hnd. apply Hnd. apply in_app_iff. left. rewrite <- Hn. apply in_map. auto.
    + cbn [gbind]. replace (done ++ v :: L) with ((done ++ [v]) ++ L) by (rewrite <- app_assoc; auto). apply IH.
      * intros x. rewrite sset_map_get, var_named_app, Hm. unfold var_named at 3. simpl. rewrite (String.eqb_sym x).
        destruct (String.eqb_spec (nv_name v) x).
        -- subst x. rewrite E. auto.
        -- destruct (var_named done x); auto.
      * apply var_named_none in E. rewrite map_app. simpl. apply (NoDup_Add (a := nv_name v) (l := map nv_name done)).
        { pose proof (Add_app (nv_name v) (map nv_name done) []). rewrite app_nil_r in H. auto. }
        split; auto.
Qed.

Lemma collect_names_spec vars :
  (exists m, collect_names vars = Ok m /\ names_of m vars /\ NoDup (map nv_name vars)) \/
  (exists e, collect_names vars = Err e /\ ~ NoDup (map nv_name vars)).
Proof. apply (collect_names_from vars [] []); [intros x; auto|constructor]. Qed.

Lemma zrange_cons lo hi : lo < hi -> zrange lo hi = lo :: zrange (lo + 1) hi.
Proof.
  intros H. unfold zrange. replace (Z.to_nat (hi - lo)) with (S (Z.to_nat (hi - (lo + 1)))) by lia. simpl. f_equal; [lia|].
  rewrite <- seq_shift, map_map. apply map_ext. intros. lia.
Qed.

Section New.
Context {A : Type}.
Variables (vars : list nvar) (factors : list (nfactor A)) (names : list (string * nvar)).
Hypothesis Hnames : names_of names vars.
Hypothesis Hnd : NoDup (map nv_name vars).

Definition first_index (x : string) : Z := index_func (fun f => String.eqb (nf_for f) x) factors.
(** Factor number [k] after linking the variables with names in [done]. *)
Definition link_at (done : list string) (k : nat) (f : nfactor A) : nfactor A :=
  if existsb (String.eqb (nf_for f)) done && (first_index (nf_for f) =? Z.of_nat k) then linked_factor vars f else f.
Definition link_var (v : nvar) : nvar :=
  let i := first_index (nv_name v) in
  if i <? 0 then v else mkNVar (nv_name v) (nv_type v) (nv_outcomes v) (nv_pos v) (nv_color v) (Some (Z.to_nat i)).

Definition factors_at (done : list string) (fs : list (nfactor A)) : Prop :=
  forall k, nth_error fs k = option_map (link_at done k) (nth_error factors k).

Lemma link_at_for done k f : nf_for (link_at done k f) = nf_for f /\ nf_given (link_at done k f) = nf_given f /\ nf_table (link_at done k f) = nf_table f.
Proof. unfold link_at. destruct (_ && _); auto. Qed.

Lemma index_func_heads (l l' : list (nfactor A)) x : (forall k, option_map nf_for (nth_error l k) = option_map nf_for (nth_error l' k)) ->
  index_func (fun f => String.eqb (nf_for f) x) l = index_func (fun f => String.eqb (nf_for f) x) l'.
Proof.
  intros H. unfold index_func. generalize 0. revert l' H. induction l as [|f l IH]; intros [|f' l'] H i; auto.
  - specialize (H 0%nat). discriminate.
  - specialize (H 0%nat). discriminate.
  - pose proof (H 0%nat) as H0. simpl in H0. inversion H0 as [E]. simpl. rewrite E. destruct (String.eqb (nf_for f') x); auto.
    apply IH. intros k. apply (H (S k)).
Qed.

Lemma first_index_find x : match factor_for factors x with
  | Some f => exists k, first_index x = Z.of_nat k /\ nth_error factors k = Some f /\ nf_for f = x
  | None => first_index x = -1 end.
Proof.
  unfold factor_for, first_index. destruct (index_func_spec (fun f => String.eqb (nf_for f) x) factors) as [[E H]|(k & f & E & Hk & Hf & Hmin)].
  - destruct (find _ factors) eqn:Ef; auto. apply find_some in Ef. destruct Ef as [Hin Ht]. rewrite (H _ Hin) in Ht. discriminate.
  - assert (Ef : find (fun f => String.eqb (nf_for f) x) factors = Some f).
    { clear E. revert k Hk Hmin. induction factors as [|g l IH]; intros k Hk Hmin; [destruct k; discriminate|]. simpl.
      destruct k.
      - inversion Hk; subst. rewrite Hf. auto.
      - rewrite (Hmin 0%nat g) by (auto; lia). apply (IH k Hk). intros j y Hj. apply (Hmin (S j)). lia. }
    rewrite Ef. exists k. split; auto. split; auto. apply String.eqb_eq. auto.
Qed.

Definition parents_known (v : nvar) : Prop := forall f g, factor_for factors (nv_name v) = Some f -> In g (nf_given f) -> exists p, In p vars /\ nv_name p = g.

Lemma mapM_parents (given : list string) :
  (mapM (fun g => match sget_map names g with None => Err (EMsg "parent variable not found") | Some p => Ok (zlen (nv_outcomes p)) end) given
    = Ok (map (fun g => Z.of_nat (num_outcomes vars g)) given) /\ forall g, In g given -> exists p, In p vars /\ nv_name p = g) \/
  (exists e, mapM (fun g => match sget_map names g with None => Err (EMsg "parent variable not found") | Some p => Ok (zlen (nv_outcomes p)) end) given = Err e /\
    exists g, In g given /\ ~ exists p, In p vars /\ nv_name p = g).
Proof.
  induction given as [|g l IH]; [left; split; [reflexivity|intros ? []]|]. cbn [mapM]. rewrite (Hnames g).
  destruct (var_named vars g) as [p|] eqn:E.
  - cbn [gbind]. destruct IH as [[-> IH]|(e & -> & g' & Hg' & Hno)].
    + left. cbn [gbind map]. unfold num_outcomes at 2. rewrite E. split; auto. intros x [<-|Hx]; auto. apply var_named_some in E. eauto.
    + right. cbn [gbind]. exists e. split; auto. exists g'. simpl. auto.
  - right. cbn [gbind]. eexists. split; [reflexivity|]. exists g. split; [simpl; auto|]. intros (p & Hp & Hn). apply var_named_none in E. apply E. rewrite <- Hn. apply in_map. auto.
Qed.

Lemma link_step done fs v : In v vars -> ~ In (nv_name v) done -> factors_at done fs ->
  (exists fs', link_factor names fs v = Ok (fs', link_var v) /\ factors_at (nv_name v :: done) fs' /\ parents_known v) \/
  (exists e, link_factor names fs v = Err e /\ ~ parents_known v).
Proof.
  intros Hv Hnew Hfs. unfold link_factor.
  assert (Ei : index_func (fun f => String.eqb (nf_for f) (nv_name v)) fs = first_index (nv_name v)).
  { apply index_func_heads. intros k. rewrite Hfs. destruct (nth_error factors k); simpl; auto. f_equal. apply link_at_for. }
  rewrite Ei. pose proof (first_index_find (nv_name v)) as Hf. unfold link_var. destruct (factor_for factors (nv_name v)) as [f|] eqn:Ef.
  - destruct Hf as (k & Ek & Hk & Hfor). rewrite Ek. replace (Z.of_nat k <? 0) with false by lia.
    assert (Hkf : nth_error fs k = Some (link_at done k f)) by (rewrite Hfs, Hk; auto).
    rewrite (sget_ok _ _ _ Hkf). cbn [gbind]. destruct (link_at_for done k f) as (E1 & E2 & E3). rewrite E2.
    destruct (mapM_parents (nf_given f)) as [[-> Hp]|(e & -> & g & Hg & Hno)].
    + left. cbn [gbind]. rewrite E1, E3.
      assert (Hlt : (k < List.length fs)%nat) by (apply nth_error_Some; congruence).
      replace (mkNFactor (nf_for f) (nf_given f) (nf_table f) (map (fun g => Z.of_nat (num_outcomes vars g)) (nf_given f)) (zlen (nv_outcomes v))) with (linked_factor vars f).
      2:{ unfold linked_factor. f_equal. unfold num_outcomes. rewrite Hfor, (var_named_in' vars v); auto. }
      rewrite sset_ok by auto. cbn [gbind]. rewrite Nat2Z.id. eexists. split; [reflexivity|]. split.
      * intros j. destruct (Nat.eqb_spec j k).
        -- subst j. rewrite upd_nth_same by auto. rewrite Hk. simpl. unfold link_at. rewrite Hfor. simpl. rewrite String.eqb_refl, Ek, Z.eqb_refl. auto.
        -- rewrite upd_nth_other by auto. rewrite Hfs. destruct (nth_error factors j) as [h|] eqn:Hj; simpl; auto. f_equal. unfold link_at. simpl.
           destruct (String.eqb_spec (nf_for h) (nv_name v)); auto. simpl. rewrite e, Ek. replace (Z.of_nat k =? Z.of_nat j) with false by lia. rewrite andb_false_r. auto.
      * intros f' g Hf' Hg. apply Hp. congruence.
    + right. cbn [gbind]. exists e. split; auto. intros Hpk. apply Hno. apply (Hpk f g Ef Hg).
  - left. rewrite Hf. simpl. exists fs. split; auto. split.
    + intros j. rewrite Hfs. destruct (nth_error factors j) as [h|] eqn:Hj; simpl; auto. f_equal. unfold link_at. simpl.
      destruct (String.eqb_spec (nf_for h) (nv_name v)); auto. simpl. rewrite e, Hf.
      replace (-1 =? Z.of_nat j) with false by lia. rewrite andb_false_r. auto.
    + intros f g Hf'. congruence.
Qed.

Lemma link_loop L : forall done fs vs, incl L vars -> NoDup (map nv_name L) -> (forall v, In v L -> ~ In (nv_name v) done) -> factors_at done fs ->
  (exists fs', foldM (fun '(factors, vs) v => let! (factors', v') := link_factor names factors v in Ok (factors', vs ++ [v'])) (fs, vs) L
     = Ok (fs', vs ++ map link_var L) /\ factors_at (rev (map nv_name L) ++ done) fs' /\ forall v, In v L -> parents_known v) \/
  (exists e, foldM (fun '(factors, vs) v => let! (factors', v') := link_factor names factors v in Ok (factors', vs ++ [v'])) (fs, vs) L = Err e /\
     ~ forall v, In v L -> parents_known v).
Proof.
  induction L as [|v L IH]; intros done fs vs Hi Hn Hd Hfs.
  - left. exists fs. simpl. rewrite app_nil_r. split; auto. split; auto. intros ? [].
  - cbn [foldM]. simpl in Hn. inversion Hn; subst.
    destruct (link_step done fs v) as [(fs' & -> & Hfs' & Hp)|(e & -> & Hp)]; auto; try (apply Hi; simpl; auto); try (apply Hd; simpl; auto).
    + cbn [gbind]. destruct (IH (nv_name v :: done) fs' (vs ++ [link_var v])) as [(fs2 & -> & Hfs2 & Hp2)|(e & -> & Hp2)]; auto.
      * intros x Hx. apply Hi. simpl; auto.
      * intros x Hx [E|Hin]; [|apply (Hd x); simpl; auto]. apply H1. rewrite E. apply in_map. auto.
      * left. exists fs2. cbn [map rev]. rewrite <- !app_assoc. split; [reflexivity|]. split; [exact Hfs2|]. intros x [<-|Hx]; auto.
      * right. exists e. split; auto. intros H. apply Hp2. intros x Hx. apply H. simpl; auto.
    + right. cbn [gbind]. exists e. split; auto. intros H. apply Hp. apply H. simpl; auto.
Qed.


(** Utility nodes. *)
Variables (fs : list (nfactor A)) (vs : list nvar).
Hypothesis Hfs : factors_at (rev (map nv_name vars) ++ []) fs.
Hypothesis Hvs : vs = map link_var vars.
Hypothesis Hpar : forall v, In v vars -> parents_known v.
Hypothesis Hnil : forall v, In v vars -> nv_factor v = None.

Definition kinds_step : bool * bool -> string -> gores (bool * bool) := fun '((hu, ho) : bool * bool) parent =>
  match sget_map names parent with
  | None => Err (EMsg "parent node not found")
  | Some p => if nodeType_eqb (nv_type p) Utility then Ok (true, ho) else Ok (hu, true)
  end.

Definition is_utility_name (g : string) : bool := match kind vars g with Some Utility => true | _ => false end.

Lemma kinds_ok given : (forall g, In g given -> exists p, In p vars /\ nv_name p = g) -> forall hu ho,
  foldM kinds_step (hu, ho) given = Ok (hu || existsb is_utility_name given, ho || existsb (fun g => negb (is_utility_name g)) given).
Proof.
  induction given as [|g l IH]; intros H hu ho; [simpl; rewrite !orb_false_r; auto|]. cbn [foldM existsb]. unfold kinds_step at 1.
  destruct (H g (or_introl eq_refl)) as (p & Hp & Hn). rewrite (Hnames g), <- Hn, (var_named_in' vars p Hnd Hp).
  unfold is_utility_name at 1 3. unfold kind. rewrite (var_named_in' vars p Hnd Hp). simpl.
  destruct (nv_type p); cbn [nodeType_eqb gbind negb orb]; rewrite IH by (intros; apply H; simpl; auto); f_equal; f_equal;
    rewrite ?orb_true_r, ?orb_false_l; auto; destruct hu, ho; auto.
Qed.

(** One utility node. *)
Lemma kind_in g : (exists p, In p vars /\ nv_name p = g) -> exists t, kind vars g = Some t.
Proof. intros (p & Hp & <-). unfold kind. rewrite (var_named_in' vars p Hnd Hp). simpl. eauto. Qed.

Definition ustep (tui : Z) (iv : Z * nvar) : gores Z :=
  let '(i, v) := iv in
    if negb (nodeType_eqb (nv_type v) Utility) then Ok tui
    else
    match nv_factor v with
    | None => Panic PNil
    | Some k =>
      let! f := sget fs (Z.of_nat k) in
      let! (hasUtil, hasOther) := foldM kinds_step (false, false) (nf_given f) in
      if hasUtil && hasOther then Err (EMsg "utility parents and other parents")
      else if negb hasUtil && negb hasOther then Err (EMsg "utility node has no parents")
      else if negb hasUtil then Ok tui
      else if 0 <=? tui then Err (EMsg "multiple nodes for total utility")
      else if negb (zlen (nv_outcomes v) =? zlen (nf_given f)) then Err (EMsg "invalid total utility node")
      else Ok i
    end.

Definition good_node (v : nvar) : Prop := nv_type v = Utility -> collects vars factors v \/ rewards vars factors v.
Definition good_weights (v : nvar) : Prop := forall f, collects vars factors v -> factor_for factors (nv_name v) = Some f ->
    zlen (nv_outcomes v) = zlen (nf_given f).
(** A utility node without any factor. *)
Definition bare_utility (v : nvar) : Prop := nv_type v = Utility /\ factor_for factors (nv_name v) = None.

Lemma collects_not_rewards v : collects vars factors v -> rewards vars factors v -> False.
Proof.
  intros (_ & f & Ef & Hne & H) (_ & f' & Ef' & _ & H'). rewrite Ef in Ef'. inversion Ef'; subst f'.
  destruct (nf_given f) as [|g l]; [congruence|]. destruct (H' g (or_introl eq_refl)) as [E|E]; rewrite (H g (or_introl eq_refl)) in E; discriminate.
Qed.

Lemma ustep_spec tui i v : In v vars -> 
  (exists t, ustep tui (i, link_var v) = Ok t /\ good_node v /\ good_weights v /\
     ((t = tui /\ ~ collects vars factors v) \/ (t = i /\ collects vars factors v /\ tui < 0))) \/
  (exists e, ustep tui (i, link_var v) = Err e /\ (good_node v -> good_weights v -> collects vars factors v /\ 0 <= tui)) \/
  (ustep tui (i, link_var v) = Panic PNil /\ bare_utility v).
Proof.
  intros Hv. unfold ustep.
  assert (Ety : nv_type (link_var v) = nv_type v) by (unfold link_var; destruct (_ <? 0); auto).
  assert (Eo : nv_outcomes (link_var v) = nv_outcomes v) by (unfold link_var; destruct (_ <? 0); auto).
  rewrite Ety. destruct (nodeType_eqb (nv_type v) Utility) eqn:Et; cbn [negb].
  2:{ left. exists tui. assert (nv_type v <> Utility) by (intros E; rewrite E in Et; discriminate).
      assert (~ collects vars factors v) by (intros [H0 _]; congruence).
      split; auto. split; [intros H1; congruence|]. split; [intros f Hc; tauto|]. auto. }
  assert (Hty : nv_type v = Utility) by (destruct (nv_type v); auto; discriminate).
  pose proof (first_index_find (nv_name v)) as Hf. unfold link_var. destruct (factor_for factors (nv_name v)) as [f|] eqn:Ef.
  2:{ right. right. rewrite Hf. cbn [Z.ltb Z.compare]. rewrite (Hnil v Hv). split; auto. split; auto. }
  destruct Hf as (k & Ek & Hk & Hfor). rewrite Ek. replace (Z.of_nat k <? 0) with false by lia. cbn [nv_factor nv_outcomes]. rewrite Nat2Z.id.
  assert (Hkf : nth_error fs k = Some (link_at (rev (map nv_name vars) ++ []) k f)) by (rewrite Hfs, Hk; auto).
  rewrite (sget_ok _ _ _ Hkf). cbn [gbind]. destruct (link_at_for (rev (map nv_name vars) ++ []) k f) as (_ & Eg & _). rewrite Eg.
  assert (Hp : forall g, In g (nf_given f) -> exists p, In p vars /\ nv_name p = g) by (intros g Hg; apply (Hpar v Hv f g Ef Hg)).
  rewrite (kinds_ok _ Hp). cbn [gbind orb].
  set (hu := existsb is_utility_name (nf_given f)). set (ho := existsb (fun g => negb (is_utility_name g)) (nf_given f)).
  assert (HC : collects vars factors v <-> (hu = true /\ ho = false)).
  { split.
    - intros (_ & f' & Ef' & Hne & Hall). rewrite Ef in Ef'. inversion Ef'; subst f'. unfold hu, ho. split.
      + destruct (nf_given f) as [|g l]; [congruence|]. simpl. unfold is_utility_name at 1. rewrite (Hall g (or_introl eq_refl)). auto.
      + apply not_true_iff_false. intros Hx. apply existsb_exists in Hx. destruct Hx as (g & Hg & Hx). unfold is_utility_name in Hx. rewrite (Hall g Hg) in Hx. discriminate.
    - intros [H1 H2]. split; auto. exists f. split; auto. apply existsb_exists in H1. destruct H1 as (g & Hg & _). split; [intros E; rewrite E in Hg; destruct Hg|].
      intros x Hx. assert (is_utility_name x = true).
      { destruct (is_utility_name x) eqn:Ex; auto. exfalso. apply not_true_iff_false in H2. apply H2. apply existsb_exists. exists x. rewrite Ex. auto. }
      unfold is_utility_name in H. destruct (kind vars x) as [[]|]; auto; discriminate. }
  assert (HR : rewards vars factors v <-> (hu = false /\ ho = true)).
  { split.
    - intros (_ & f' & Ef' & Hne & Hall). rewrite Ef in Ef'. inversion Ef'; subst f'.
      assert (Hn : forall g, In g (nf_given f) -> is_utility_name g = false) by (intros g Hg; unfold is_utility_name; destruct (Hall g Hg) as [-> | ->]; auto). unfold hu, ho. split.
      + apply not_true_iff_false. intros Hx. apply existsb_exists in Hx. destruct Hx as (g & Hg & Hx). rewrite (Hn g Hg) in Hx. discriminate.
      + destruct (nf_given f) as [|g l]; [congruence|]. simpl. rewrite (Hn g); simpl; auto.
    - intros [H1 H2]. split; auto. exists f. split; auto. apply existsb_exists in H2. destruct H2 as (g & Hg & _). split; [intros E; rewrite E in Hg; destruct Hg|].
      intros x Hx. destruct (kind_in x (Hp x Hx)) as (t & Et'). rewrite Et'. destruct t; auto. exfalso. apply not_true_iff_false in H1. apply H1.
      apply existsb_exists. exists x. split; auto. unfold is_utility_name. rewrite Et'. auto. }
  destruct hu eqn:Ehu, ho eqn:Eho; cbn [andb negb].
  - right. left. eexists. split; [reflexivity|]. intros Hg _. destruct (Hg Hty) as [Hx|Hx]; [apply HC in Hx|apply HR in Hx]; destruct Hx; discriminate.
  - assert (Hcol : collects vars factors v) by (apply HC; auto).
    destruct (0 <=? tui) eqn:E0. { right. left. eexists. split; [reflexivity|]. intros _ _. split; auto. lia. }
    destruct (zlen (nv_outcomes v) =? zlen (nf_given f)) eqn:Ez; cbn [negb].
    + left. exists i. split; auto. split; [intros _; auto|]. split; [|right; split; auto; split; auto; lia].
      intros f' _ Ef'. rewrite Ef in Ef'. inversion Ef'; subst f'. lia.
    + right. left. eexists. split; [reflexivity|]. intros _ Hw. specialize (Hw f Hcol Ef). lia.
  - left. exists tui. assert (~ collects vars factors v) by (intros Hx; apply HC in Hx; destruct Hx; discriminate).
    split; auto. split; [intros _; right; apply HR; auto|]. split; [intros f' Hx; tauto|]. auto.
  - right. left. eexists. split; [reflexivity|]. intros Hg _. destruct (Hg Hty) as [Hx|Hx]; [apply HC in Hx|apply HR in Hx]; destruct Hx; discriminate.
Qed.

(** All utility nodes. [i0] nodes have been seen. *)
Lemma utilities_loop L : forall i0 tui, incl L vars -> NoDup L -> -1 <= tui < i0 ->
  (exists t, foldM ustep tui (combine (zrange i0 (i0 + zlen L)) (map link_var L)) = Ok t /\
     (forall v, In v L -> good_node v /\ good_weights v) /\
     ((t = tui /\ forall v, In v L -> ~ collects vars factors v) \/
      (tui < 0 /\ exists k v, t = i0 + Z.of_nat k /\ nth_error L k = Some v /\ collects vars factors v /\
         forall w, In w L -> collects vars factors w -> w = v))) \/
  (exists e, foldM ustep tui (combine (zrange i0 (i0 + zlen L)) (map link_var L)) = Err e /\
     ((forall v, In v L -> good_node v /\ good_weights v) ->
       (0 <= tui /\ exists v, In v L /\ collects vars factors v) \/
       (exists v w, In v L /\ In w L /\ collects vars factors v /\ collects vars factors w /\ v <> w))) \/
  (foldM ustep tui (combine (zrange i0 (i0 + zlen L)) (map link_var L)) = Panic PNil /\ exists v, In v L /\ bare_utility v).
Proof.
  induction L as [|v L IH]; intros i0 tui Hi Hn Ht.
  - left. exists tui. split; [destruct (zrange i0 (i0 + zlen (@nil nvar))); reflexivity|]. split; [intros ? []|]. left. split; auto.
  - inversion Hn; subst. rewrite zrange_cons by (unfold zlen; simpl; lia). cbn [map combine foldM].
    replace (i0 + zlen (v :: L)) with (i0 + 1 + zlen L) by (unfold zlen; simpl; lia).
    assert (Hv : In v vars) by (apply Hi; simpl; auto).
    assert (Hi' : incl L vars) by (intros x Hx; apply Hi; simpl; auto).
    destruct (ustep_spec tui i0 v Hv) as [(t & -> & Hg & Hw & Hc)|[(e & -> & He)|[-> Hb]]].
    + cbn [gbind]. assert (Ht' : -1 <= t < i0 + 1) by (destruct Hc as [[-> _]|[-> _]]; lia).
      destruct (IH (i0 + 1) t Hi' H2 Ht') as [(t' & -> & Hgood & Hcase)|[(e & -> & He)|[-> (w & Hw' & Hb)]]].
      * left. exists t'. split; auto. split; [intros x [<-|Hx]; auto|].
        destruct Hc as [[-> Hnc]|(-> & Hcol & Hneg)].
        -- destruct Hcase as [[-> Hno]|(Hneg & k & w & -> & Hk & Hcol & Huniq)].
           ++ left. split; auto. intros x [<-|Hx]; auto.
           ++ right. split; auto. exists (S k), w. split; [lia|]. split; auto. split; auto.
              intros x [<-|Hx]; auto. intros Hx; tauto.
        -- destruct Hcase as [[-> Hno]|(Hneg' & _)]; [|lia].
           right. split; auto. exists 0%nat, v. split; [lia|]. split; auto. split; auto. intros x [<-|Hx] Hcx; auto. exfalso. apply (Hno x); auto.
      * right. left. exists e. split; auto. intros Hall. destruct He as [(Ht0 & w & Hw' & Hcw)|(x & y & Hx & Hy & Hcx & Hcy & Hxy)].
        { intros x Hx. apply Hall. simpl; auto. }
        -- destruct Hc as [[-> Hnc]|(-> & Hcol & Hneg)]; [left; split; auto; exists w; simpl; auto|].
           right. exists v, w. simpl. repeat (split; auto). intros E. subst w. auto.
        -- right. exists x, y. simpl. auto 10.
      * right. right. split; auto. exists w. simpl; auto.
    + cbn [gbind]. right. left. exists e. split; auto. intros Hall. destruct (Hall v (or_introl eq_refl)) as [Hg Hw].
      destruct (He Hg Hw) as [Hc H0]. left. split; auto. exists v. simpl; auto.
    + cbn [gbind]. right. right. split; auto. exists v. simpl; auto.
Qed.

Lemma NoDup_vars : NoDup vars.
Proof. eapply NoDup_map_inv. apply Hnd. Qed.

Lemma utilities_spec : 
  (exists t, prepare_utility_nodes names fs vs = Ok t /\ valid_structure vars factors /\ total_index vars factors t) \/
  (exists e, prepare_utility_nodes names fs vs = Err e /\ ~ valid_structure vars factors) \/
  (prepare_utility_nodes names fs vs = Panic PNil /\ ~ valid_structure vars factors /\ exists v, In v vars /\ bare_utility v).
Proof.
  assert (E : prepare_utility_nodes names fs vs = foldM ustep (-1) (combine (zrange 0 (zlen vars)) (map link_var vars))).
  { unfold prepare_utility_nodes. rewrite Hvs. replace (zlen (map link_var vars)) with (zlen vars) by (unfold zlen; rewrite map_length; auto). reflexivity. }
  rewrite E. replace (zlen vars) with (0 + zlen vars) by lia. destruct (utilities_loop vars 0 (-1) (incl_refl _) NoDup_vars ltac:(lia)) as [(t & -> & Hg & Hc)|[(e & -> & He)|[-> (v & Hv & Hb)]]].
  - left. exists t. split; auto. split.
    + split; auto.
      * intros v f g Hv Hf Hg'. apply (Hpar v Hv f g Hf Hg').
      * intros v Hv. apply Hg. auto.
      * intros v w Hv Hw Hcv Hcw. destruct Hc as [[_ Hno]|(_ & k & x & _ & _ & _ & Huniq)]; [exfalso; apply (Hno v); auto|].
        rewrite (Huniq v), (Huniq w); auto.
      * intros v f Hv Hcv Hf. apply (proj2 (Hg v Hv) f); auto.
    + destruct Hc as [[-> Hno]|(_ & k & x & -> & Hk & Hcx & _)]; [left; auto|]. right. split; [lia|]. exists x. rewrite Z.add_0_l, Nat2Z.id. auto.
  - right. left. exists e. split; auto. intros [S1 S2 S3 S4 S5]. destruct He as [(H0 & _)|(v & w & Hv & Hw & Hcv & Hcw & Hne)]; [|lia|].
    + intros v Hv. split; [intros Ht; apply S3; auto|]. intros f Hc Hf. apply (S5 v f); auto.
    + apply Hne. apply S4; auto.
  - right. right. split; auto. split; [|eauto]. intros [_ _ S3 _ _]. destruct Hb as [Ht Hf].
    destruct (S3 v Hv Ht) as [(_ & f & Ef & _)|(_ & f & Ef & _)]; congruence.
Qed.

End New.

Lemma link_var_same {A} (factors : list (nfactor A)) v : same_variable v (link_var factors v).
Proof. unfold link_var, same_variable. destruct (_ <? 0); simpl; auto. Qed.

(** New accepts exactly the valid structures. *)
Theorem new_spec {A} name info vars (factors : list (nfactor A)) : (forall v, In v vars -> nv_factor v = None) ->
  (exists n, net_new name info vars factors = Ok n /\ valid_structure vars factors /\
     n_name n = name /\ n_info n = info /\ n_policies n = [] /\ n_ve n = None /\
     n_vars n = map (link_var factors) vars /\
     (forall k, nth_error (n_factors n) k = option_map (link_at vars factors (rev (map nv_name vars) ++ []) k) (nth_error factors k)) /\
     total_index vars factors (n_tui n)) \/
  (exists e, net_new name info vars factors = Err e /\ ~ valid_structure vars factors) \/
  (net_new name info vars factors = Panic PNil /\ ~ valid_structure vars factors /\ exists v, In v vars /\ bare_utility factors v).
Proof.
  intros Hnil. unfold net_new. destruct (collect_names_spec vars) as [(m & -> & Hm & Hnd)|(e & -> & Hnd)].
  2:{ right. left. exists e. split; auto. intros [S1 _ _ _ _]. auto. }
  cbn [gbind]. destruct (link_loop vars factors m Hm Hnd vars [] factors []) as [(fs & -> & Hfs & Hp)|(e & -> & Hp)]; auto.
  - apply incl_refl.
  - intros k. destruct (nth_error factors k); auto.
  - cbn [gbind app]. destruct (utilities_spec vars factors m Hm Hnd fs (map (link_var factors) vars) Hfs eq_refl Hp Hnil) as [(t & -> & Hv & Ht)|[(e & -> & Hv)|[-> [Hv Hb]]]].
    + left. cbn [gbind]. eexists. split; [reflexivity|]. simpl. auto 10.
    + right. left. cbn [gbind]. eauto.
    + right. right. cbn [gbind]. auto.
  - right. left. cbn [gbind]. exists e. split; auto. intros [_ S2 _ _ _]. apply Hp. intros v Hv f g Hf Hg. eapply S2; eauto.
Qed.

(** ** Well-formed networks from New *)
Section Wf.
Variables (vars : list nvar) (factors : list (nfactor xnum)).

Lemma var_named_link x : var_named (map (link_var factors) vars) x = option_map (link_var factors) (var_named vars x).
Proof.
  unfold var_named. induction vars as [|v l IH]; simpl; auto. destruct (link_var_same factors v) as (E & _). rewrite E.
  destruct (String.eqb (nv_name v) x); auto.
Qed.

Lemma num_outcomes_link x : num_outcomes (map (link_var factors) vars) x = num_outcomes vars x.
Proof. unfold num_outcomes. rewrite var_named_link. destruct (var_named vars x); simpl; auto. destruct (link_var_same factors n) as (_ & _ & E & _). rewrite E. auto. Qed.

Lemma kind_link x : kind (map (link_var factors) vars) x = kind vars x.
Proof. unfold kind. rewrite var_named_link. destruct (var_named vars x); simpl; auto. destruct (link_var_same factors n) as (_ & E & _). rewrite E. auto. Qed.

Lemma table_size_link l : table_size (map (link_var factors) vars) l = table_size vars l.
Proof. unfold table_size. induction l; simpl; auto. rewrite num_outcomes_link, IHl. auto. Qed.

Theorem new_wf name info n : good_input vars factors -> net_new name info vars factors = Ok n -> wf_network n.
Proof.
  intros Hg E. destruct (new_spec name info vars factors (gi_unlinked _ _ Hg)) as [(n' & E' & Hst & _ & _ & Hpol & _ & Hv & Hf & Ht)|[(e & E' & _)|[E' _]]]; try congruence.
  assert (n' = n) by congruence. subst n'.
  pose proof (st_names _ _ Hst) as Hnd.
  assert (Hin : forall v', In v' (n_vars n) -> exists v, In v vars /\ v' = link_var factors v).
  { intros v' H. rewrite Hv in H. apply in_map_iff in H. destruct H as (v & <- & H). eauto. }
  assert (Htot : forall v, In v vars -> (is_total n (nv_name v) = true <-> collects vars factors v)).
  { intros v Hvin. unfold is_total. rewrite Hv, nth_error_map. destruct Ht as [[-> Hno]|(H0 & t & Hti & Hct)].
    - split; [|intros Hc; exfalso; apply (Hno v); auto]. simpl. destruct vars; simpl; discriminate.
    - rewrite Hti. simpl. destruct (link_var_same factors t) as (En & _). rewrite En. replace (0 <=? n_tui n) with true by lia. simpl.
      split.
      + intros Eq. apply String.eqb_eq in Eq. pose proof (var_named_in' vars v Hnd Hvin) as E1. pose proof (var_named_in' vars t Hnd (nth_error_In _ _ Hti)) as E2.
        rewrite Eq in E2. assert (t = v) by congruence. subst. auto.
      + intros Hc. apply String.eqb_eq. f_equal. apply (st_single _ _ Hst); auto. eapply nth_error_In; eauto. }
  split.
  - rewrite Hv, map_map. erewrite map_ext; [apply Hnd|]. intros v. apply link_var_same.
  - intros v' H. destruct (Hin v' H) as (v & Hvin & ->). destruct (link_var_same factors v) as (-> & _). apply (gi_nonempty _ _ Hg); auto.
  - rewrite Hv. unfold zlen. rewrite map_length. apply (gi_count _ _ Hg).
  - intros v' H. destruct (Hin v' H) as (v & Hvin & ->). destruct (link_var_same factors v) as (_ & _ & -> & _). apply (gi_outcomes _ _ Hg); auto.
  - intros v' H. destruct (Hin v' H) as (v & Hvin & ->). destruct (link_var_same factors v) as (_ & _ & -> & _). apply (gi_outcomes _ _ Hg); auto.
  - intros f' Hf' Hnt. apply In_nth_error in Hf'. destruct Hf' as (k & Hk). rewrite Hf in Hk.
    destruct (nth_error factors k) as [f|] eqn:Hkf; [|discriminate]. simpl in Hk. inversion Hk as [E1]. clear Hk.
    destruct (link_at_for vars factors (rev (map nv_name vars) ++ []) k f) as (Efor & Egiv & Etab). rewrite E1 in *.
    pose proof (nth_error_In _ _ Hkf) as Hfin. destruct (gi_for _ _ Hg f Hfin) as (v & Hvin & Hvn).
    assert (Hnc : ~ collects vars factors v).
    { intros Hc. apply Htot in Hc; auto. rewrite Efor, <- Hvn, Hc in Hnt. discriminate. }
    destruct (gi_tables _ _ Hg f v Hfin Hvin Hvn Hnc) as (Hd & Hpar & Htab).
    split; rewrite ?Efor, ?Egiv, ?Etab.
    + rewrite Hv, var_named_link, <- Hvn, (var_named_in' vars v Hnd Hvin). simpl. eauto.
    + intros g Hgi. assert (Hkg : exists p, var_named vars g = Some p /\ nv_type p <> Utility).
      { specialize (Hpar g Hgi). unfold kind in Hpar. destruct (var_named vars g) as [p|]; simpl in Hpar; [|destruct Hpar; discriminate].
        exists p. split; auto. destruct Hpar as [Hx|Hx]; inversion Hx; congruence. }
      destruct Hkg as (p & Hp & Hpt). split.
      * apply var_named_some in Hp. destruct Hp as [Hpin Hpn]. rewrite <- Hpn. apply not_true_iff_false. rewrite (Htot p Hpin). intros [Hu _]. congruence.
      * rewrite Hv, var_named_link, Hp. simpl. eauto.
    + auto.
    + rewrite Hv, kind_link. intros Hnd'. destruct Htab as (l & Hl & Hlen).
      { intros Hdec. apply Hnd'. unfold kind. rewrite <- Hvn, (var_named_in' vars v Hnd Hvin). simpl. congruence. }
      exists l. split; auto. rewrite table_size_link. auto.
    + intros g Hgi. rewrite Hv, kind_link. destruct (Hpar g Hgi) as [-> | ->]; discriminate.
  - unfold wf_total. destruct Ht as [[-> _]|(H0 & t & Hti & Hct)]; [left; auto|]. right.
    pose proof Hct as (Htu & f & Hff & Hgne & Hgall). pose proof (nth_error_In _ _ Hti) as Htin.
    pose proof (first_index_find factors (nv_name t)) as Hfi. rewrite Hff in Hfi. destruct Hfi as (k & Ek & Hk & Hfor).
    destruct (gi_total _ _ Hg f t Htin Hct Hff) as ((l & Hl & Hlen) & Hall).
    exists (Z.to_nat (n_tui n)), (link_var factors t), k, (link_at vars factors (rev (map nv_name vars) ++ []) k f), l.
    destruct (link_at_for vars factors (rev (map nv_name vars) ++ []) k f) as (Efor & Egiv & Etab). rewrite Egiv, Etab.
    destruct (link_var_same factors t) as (En & Ety & _).
    split; [lia|]. split; [rewrite Hv, nth_error_map, Hti; auto|]. split; [congruence|]. split.
    { unfold link_var. rewrite Ek. replace (Z.of_nat k <? 0) with false by lia. simpl. rewrite Nat2Z.id. auto. }
    split; [rewrite Hf, Hk; auto|]. split; auto. split; auto.
    intros j u' Hj Hjne Hu. rewrite Hv, nth_error_map in Hj. destruct (nth_error vars j) as [u|] eqn:Eu; [|discriminate].
    simpl in Hj. inversion Hj; subst u'. destruct (link_var_same factors u) as (-> & Ety' & _). apply Hall; [eapply nth_error_In; eauto|congruence|].
    intros ->. apply Hjne. rewrite NoDup_nth_error in Hnd. apply Hnd; [rewrite map_length; apply nth_error_Some; congruence|].
    rewrite !nth_error_map, Eu, Hti. auto.
  - rewrite Hpol. constructor.
  - rewrite Hpol. intros x p [].
Qed.

End Wf.

(** ** The statement for users of New *)
Theorem new_api {A} name info vars (factors : list (nfactor A)) : (forall v, In v vars -> nv_factor v = None) ->
  (valid_structure vars factors <-> exists n, net_new name info vars factors = Ok n) /\
  (forall p, net_new name info vars factors = Panic p ->
     exists v, In v vars /\ nv_type v = Utility /\ factor_for factors (nv_name v) = None) /\
  (forall n, net_new name info vars factors = Ok n ->
     n_name n = name /\ n_info n = info /\ n_policies n = [] /\ n_ve n = None /\
     Forall2 same_variable vars (n_vars n) /\ Forall2 same_factor factors (n_factors n) /\
     (forall v f, In v vars -> factor_for factors (nv_name v) = Some f ->
        exists v' k, var_named (n_vars n) (nv_name v) = Some v' /\ nv_factor v' = Some k /\
          nth_error factors k = Some f /\ nth_error (n_factors n) k = Some (linked_factor vars f)) /\
     total_index vars factors (n_tui n)).
Proof.
  intros Hnil. destruct (new_spec name info vars factors Hnil) as [(n & E & Hst & H1 & H2 & H3 & H4 & Hv & Hf & Ht)|[(e & E & Hn)|(E & Hn & v & Hv & Hb)]].
  - split; [split; eauto|]. split; [intros p; congruence|]. intros n' E'. assert (n' = n) by congruence. subst n'.
    do 4 (split; auto). split; [|split; [|split; auto]].
    + rewrite Hv. clear. induction vars as [|v l IH]; simpl; constructor; auto. apply link_var_same.
    + assert (G : forall k, match nth_error factors k, nth_error (n_factors n) k with Some f, Some g => same_factor f g | None, None => True | _, _ => False end).
      { intros k. rewrite Hf. destruct (nth_error factors k) as [f|]; simpl; auto. unfold same_factor. destruct (link_at_for vars factors (rev (map nv_name vars) ++ []) k f) as (G1 & G2 & G3). auto. }
      clear - G. revert G. generalize (n_factors n) as l. induction factors as [|f fs IH]; intros [|g l] G; auto.
      * specialize (G 0%nat). destruct G.
      * specialize (G 0%nat). destruct G.
      * constructor; [apply (G 0%nat)|]. apply IH. intros k. apply (G (S k)).
    + intros v f Hin Ef. pose proof (first_index_find factors (nv_name v)) as Hfi. rewrite Ef in Hfi. destruct Hfi as (k & Ek & Hk & Hfor).
      exists (link_var factors v), k. split; [|split; [|split; auto]].
      * rewrite Hv. pose proof (st_names _ _ Hst) as Hnd. clear - Hin Hnd. unfold var_named. revert Hin Hnd. induction vars as [|w l IH]; cbn [map In find]; intros Hin Hnd; [destruct Hin|]. destruct Hin as [->|Hin].
        -- destruct (link_var_same factors v) as (-> & _). simpl. rewrite String.eqb_refl. auto.
        -- destruct (link_var_same factors w) as (-> & _). inversion Hnd; subst. destruct (String.eqb_spec (nv_name w) (nv_name v)); auto.
           exfalso. apply H1. rewrite e. apply in_map. auto.
      * unfold link_var. rewrite Ek. replace (Z.of_nat k <? 0) with false by lia. simpl. rewrite Nat2Z.id. auto.
      * rewrite Hf, Hk. simpl. f_equal. unfold link_at. rewrite Hfor, Ek, Z.eqb_refl, andb_true_r, app_nil_r.
        replace (existsb _ _) with true; auto. symmetry. apply existsb_exists. exists (nv_name v). rewrite <- in_rev. split; [apply in_map; auto|apply String.eqb_refl].
  - split; [split; [tauto|intros (n & E'); congruence]|]. split; intros; congruence.
  - split; [split; [tauto|intros (n & E'); congruence]|]. split; [|intros; congruence].
    intros p Hp. exists v. split; auto.
Qed.
