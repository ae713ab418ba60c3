(** Networks that are given in both formats are the same. *)
From Coq Require Import ZArith List Bool String Lia.
From Verif Require Import Num GoBase VarModel GoFacts VEModel NetModel SpecNet NetNew LogicModel LogicShape TextModel DocModel SpecDoc DocFacts DocXml SpecReload NetBare SpecFormats TrainModel CliModel.
Import ListNotations.
Open Scope string_scope.
Open Scope list_scope.
Open Scope Z_scope.

Definition uncolored (v : nvar) : nvar := mkNVar (nv_name v) (nv_type v) (nv_outcomes v) (nv_pos v) "" (nv_factor v).

Section Formats.
Context {A : Type} {N : NumOps A}.

Definition plain (n : network A) : network A := mkNet (n_name n) "" (map uncolored (n_vars n)) (n_factors n) (n_policies n) (n_ve n) (n_names n) (n_tui n).
Definition link_state (st : list (nfactor A) * list nvar) := let '(fs, vs) := st in (fs, map uncolored vs).

Lemma has_values {V W} (h : V -> W) m k : has_key (on_values h m) k = has_key m k.
Proof. unfold has_key. rewrite sget_values. destruct (sget_map m k); auto. Qed.
Lemma plain_names vars : collect_names (map uncolored vars) = gmap (on_values uncolored) (collect_names vars).
Proof.
  unfold collect_names. change (@nil (string * nvar)) with (on_values uncolored []) at 1. apply foldM_gmap. intros m v. cbn [uncolored nv_name].
  rewrite has_values. destruct (has_key m (nv_name v)); cbn [gmap]; auto. f_equal. apply (sset_values uncolored m (nv_name v) v).
Qed.
Lemma plain_link names (fs : list (nfactor A)) v : link_factor (on_values uncolored names) fs (uncolored v) = gmap (fun '(fs', v') => (fs', uncolored v')) (link_factor names fs v).
Proof.
  unfold link_factor. cbn [uncolored nv_name nv_outcomes]. destruct (index_func _ fs <? 0); auto. rewrite !gmap_bind. apply gbind_ext. intros f. rewrite !gmap_bind.
  rewrite (mapM_ext _ (fun g => match sget_map names g with None => Err (EMsg "parent variable not found") | Some p => Ok (zlen (nv_outcomes p)) end)).
  2:{ intros g. rewrite sget_values. destruct (sget_map names g); auto. }
  apply gbind_ext. intros outs. rewrite !gmap_bind. apply gbind_ext. intros fs'. reflexivity.
Qed.
Lemma plain_utility names (fs : list (nfactor A)) vars : prepare_utility_nodes (on_values uncolored names) fs (map uncolored vars) = prepare_utility_nodes names fs vars.
Proof.
  unfold prepare_utility_nodes. rewrite zlen_map, combine_map_r. rewrite <- (gmap_id (foldM _ _ (combine _ vars))).
  apply (foldM_gmap (fun x : Z => x) (fun '((i, v) : Z * nvar) => (i, uncolored v))). intros tui [i v]. rewrite gmap_id. cbn [uncolored nv_type nv_factor nv_outcomes].
  destruct (negb _); auto. destruct (nv_factor v) as [k|]; auto. apply gbind_ext. intros f.
  rewrite (foldM_ext _ (fun '((hu, ho) : bool * bool) parent => match sget_map names parent with None => Err (EMsg "parent node not found") | Some p => if nodeType_eqb (nv_type p) Utility then Ok (true, ho) else Ok (hu, true) end)); auto.
  intros [hu ho] g. rewrite sget_values. destruct (sget_map names g); auto.
Qed.
Lemma plain_new name info vars (fs : list (nfactor A)) : net_new name "" (map uncolored vars) fs = gmap plain (net_new name info vars fs).
Proof.
  unfold net_new. rewrite plain_names, bind_gmap, gmap_bind. apply gbind_ext. intros names.
  rewrite (foldM_gmap link_state uncolored (fun '(factors, vs) v => let! (factors', v') := link_factor names factors v in Ok (factors', vs ++ [v'])) _) with (a := (fs, [])).
  - rewrite bind_gmap, gmap_bind. apply gbind_ext. intros [fs' vs']. cbn [link_state]. rewrite plain_utility, gmap_bind. apply gbind_ext. intros tui. reflexivity.
  - intros [fs0 vs0] v. cbn [link_state]. rewrite plain_link, bind_gmap, gmap_bind. apply gbind_ext. intros [fs1 v1]. cbn [gmap link_state]. rewrite map_app. reflexivity.
Qed.
Lemma plain_bare n : n_names n = [] -> bare (plain n) = bare n.
Proof. intros E. unfold bare, plain. cbn [n_vars n_factors n_policies n_ve n_names n_tui]. rewrite map_map. f_equal. Qed.

Section Doc.
Variable parse_float : string -> option A.

Lemma same_inputs d v w : same_node parse_float d v w ->
  exists p, node_input v p /\ xml_input parse_float d w (uncolored (fst p), snd p).
Proof.
  intros [En (t & Ht & Ht') Eo Ep (def & table & Hd & Eg & Ht1 & Hv & Hne & rows & Hr)].
  exists (mkNVar (y_name v) t (y_outcomes v) (y_pos v) (y_color v) None, mkNFactor (y_name v) (y_given v) table [] 0). split.
  - exists t, table. auto.
  - exists def, t, (y_pos v), (slice_of table). split; auto. split; auto. split; auto. split; auto. split; [intros _; exists rows; rewrite Eo; auto|].
    cbn [fst snd uncolored nv_name nv_type nv_outcomes nv_pos nv_factor]. rewrite En, Eo, Eg. f_equal. f_equal. destruct table as [[|x l]|]; auto. congruence.
Qed.
Lemma same_documents_inputs d ys xs : Forall2 (same_node parse_float d) ys xs ->
  exists ps, Forall2 node_input ys ps /\ Forall2 (xml_input parse_float d) xs (map (fun p => (uncolored (fst p), snd p)) ps).
Proof.
  induction 1 as [|v w ys xs H _ (ps & I1 & I2)]; [exists []; split; constructor|]. destruct (same_inputs d v w H) as (p & P1 & P2). exists (p :: ps). split; constructor; auto.
Qed.
Theorem same_formats reg y x : like_new reg -> same_document parse_float y x ->
  from_xml parse_float x = gmap plain (fst (from_yaml reg y)) /\ forall p, from_xml parse_float x <> Panic p.
Proof.
  intros L [En H]. destruct (same_documents_inputs x _ _ H) as (ps & H1 & H2).
  assert (E : from_xml parse_float x = net_new (xd_name x) "" (map fst (map (fun p => (uncolored (fst p), snd p)) ps)) (map snd (map (fun p => (uncolored (fst p), snd p)) ps))).
  { unfold from_xml. fold (defs_map (xd_defs x)). rewrite (xml_nodes_ok parse_float x (xd_vars x) _ H2). reflexivity. }
  split; [|rewrite E; intros p; eapply xml_never_bare; eauto]. rewrite E, !map_map. cbn [fst snd]. rewrite <- (map_map fst uncolored), En, (plain_new (yd_name y) (yd_info y)). f_equal.
  unfold from_yaml. pose proof (yaml_nodes_ok _ _ H1 reg L) as Q. destruct (yaml_nodes reg (yd_vars y)) as [l reg']. cbn [fst] in Q |- *. rewrite Q. reflexivity.
Qed.
End Doc.

(** ** Training *)
Lemma plain_indexed (n : network A) : combine (zrange 0 (zlen (n_vars (plain n)))) (n_vars (plain n)) = map (fun '(i, v) => (i, uncolored v)) (combine (zrange 0 (zlen (n_vars n))) (n_vars n)).
Proof. unfold plain; cbn [n_vars]. rewrite zlen_map, combine_map_r. reflexivity. Qed.
Lemma plain_indices (n : network A) : node_indices (n_vars (plain n)) = node_indices (n_vars n).
Proof. unfold node_indices. rewrite plain_indexed. generalize (@nil (string * Z)). induction (combine _ (n_vars n)) as [|[i v] l IH]; intros m; auto. cbn [map fold_left]. apply IH. Qed.
Lemma plain_trainer (n : network A) : new_trainer (plain n) = new_trainer n.
Proof. unfold new_trainer. rewrite plain_indices. unfold plain at 2 4; cbn [n_vars]. rewrite !mapM_map. reflexivity. Qed.
Lemma plain_sample (n : network A) t s u : add_sample (plain n) t s u = add_sample n t s u.
Proof.
  unfold add_sample. rewrite plain_indexed, <- (gmap_id (foldM _ _ (combine _ (n_vars n)))).
  apply (foldM_gmap (fun x : trainer A => x) (fun '((i, v) : Z * nvar) => (i, uncolored v))). intros a [i v]. rewrite gmap_id. reflexivity.
Qed.
Lemma plain_update (n : network A) t : update_network (plain n) t = (plain (fst (update_network n t)), snd (update_network n t)).
Proof.
  unfold update_network. rewrite plain_indexed. change (n_factors (plain n)) with (n_factors n).
  assert (E : forall l fs, run_steps (update_node t) fs (map (fun '((i, v) : Z * nvar) => (i, uncolored v)) l) = run_steps (update_node t) fs l).
  { induction l as [|[i v] l IH]; intros fs; auto. cbn [map run_steps]. change (update_node t fs (i, uncolored v)) with (update_node t fs (i, v)).
    destruct (update_node t fs (i, v)) as [fs' []]; auto. }
  rewrite E. destruct (run_steps (update_node t) (n_factors n) (combine (zrange 0 (zlen (n_vars n))) (n_vars n))) as [fs r]. reflexivity.
Qed.
Lemma plain_train pf (n : network A) lines noData : train_csv pf (plain n) lines noData = (plain (fst (train_csv pf n lines noData)), snd (train_csv pf n lines noData)).
Proof.
  unfold train_csv. destruct lines as [|header records]; auto.
  assert (Ep : prepare (n_vars (plain n)) header noData = prepare (n_vars n) header noData). { unfold prepare, plain; cbn [n_vars]. rewrite mapM_map. reflexivity. }
  rewrite Ep, plain_trainer.
  replace (let! columns := prepare (n_vars n) header noData in let! t := new_trainer n in foldM (train_record pf (plain n) header columns) t records)
    with (let! columns := prepare (n_vars n) header noData in let! t := new_trainer n in foldM (train_record pf n header columns) t records).
  2:{ apply gbind_ext. intros cs. apply gbind_ext. intros t. apply foldM_ext. intros a x. unfold train_record. destruct (negb _); auto. apply gbind_ext. intros cells. symmetry. apply plain_sample. }
  destruct (let! columns := prepare (n_vars n) header noData in let! t := new_trainer n in foldM (train_record pf n header columns) t records); auto. apply plain_update.
Qed.
Lemma plain_written (n : network A) : to_yaml (plain n) = to_yaml n.
Proof. unfold to_yaml, plain. cbn [n_vars n_name]. rewrite mapM_map. reflexivity. Qed.
End Formats.
