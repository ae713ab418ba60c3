(** What a caller of the network API can do, and what is seen in memory: the vocabulary of
    Props_Heap. *)
From Coq Require Import ZArith List Bool String.
From Verif Require Import Num GoBase VarModel VEModel NetModel TrainModel HeapVarModel HeapVEModel HeapNetModel.
Import ListNotations.
Open Scope string_scope.
Open Scope list_scope.
Open Scope Z_scope.

(** The order of a loop over a map is a permutation of positions: it does not depend on what the
    values in the map are. Every run of a Go program is of this kind. *)
Definition positional (sc : sched) : Prop :=
  forall n X Y (g : X -> Y) l, shuffle sc n (map g l) = map g (shuffle sc n l).

Section SpecHeap.
Context {A : Type} {N : NumOps A}.

(** Calls of methods of a network, and of the trainer (NewTrainer, AddSample for each sample,
    UpdateNetwork). [D] is the type of the elements of slices: numbers, or addresses if slices
    are references to arrays in memory. *)
Inductive request (D : Type) :=
| RQuery (ev : list (string * string)) (query : list string) (ignorePolicies : bool)
| RUtility (ev : list (string * string)) (query : list string) (utilityVar : string) (ignorePolicies : bool)
| RPolicies (stepwise : bool)
| RToEvidence (v value : string)
| RNormalize (f : factor D)
| RNormalizeUtility (utility probs : factor D)
| RMarginal (f : factor D) (v : string)
| RRearrange (f : factor D) (variables : list string)
| RTrain (samples : list (list Z * option (list A))).

(** Results of calls *)
Inductive reply (D : Type) :=
| PMarginals (m : list (string * list D)) (f : factor D)
| PFactor (f : factor D)
| PPolicies (m : list (string * nfactor D))
| PSlice (l : list D)
| PDone.

Global Arguments RQuery {D}. Global Arguments RUtility {D}. Global Arguments RPolicies {D}. Global Arguments RToEvidence {D}.
Global Arguments RNormalize {D}. Global Arguments RNormalizeUtility {D}. Global Arguments RMarginal {D}.
Global Arguments RRearrange {D}. Global Arguments RTrain {D}.
Global Arguments PMarginals {D}. Global Arguments PFactor {D}. Global Arguments PPolicies {D}. Global Arguments PSlice {D}. Global Arguments PDone {D}.

Definition is_training {D} (rq : request D) : bool := match rq with RTrain _ => true | _ => false end.

Definition gmap {X Y} (f : X -> Y) (r : gores X) : gores Y :=
  match r with Ok x => Ok (f x) | Err e => Err e | Panic p => Panic p end.

(** ** A call, with slices as values (NetModel, TrainModel): the network afterwards and the result *)
Definition on_result {D X} (n : network D) (f : X -> reply D) (r : gores (network D * X)) : network D * gores (reply D) :=
  match r with Ok (m, x) => (m, Ok (f x)) | Err e => (n, Err e) | Panic p => (n, Panic p) end.

Definition serve (sc : sched) (n : network A) (rq : request A) : network A * gores (reply A) :=
  match rq with
  | RQuery ev q ign => let '(m, r) := net_solve_query sc n ev q ign in (m, gmap (fun '(ms, f) => PMarginals ms f) r)
  | RUtility ev q u ign => let '(m, r) := net_solve_utility sc n ev q u ign in (m, gmap PFactor r)
  | RPolicies st => let '(m, r) := net_solve_policies sc n st in (m, gmap PPolicies r)
  | RToEvidence v x => (n, gmap PSlice (net_to_evidence n v x))
  | RNormalize f => on_result n PFactor (net_normalize n f)
  | RNormalizeUtility u p => on_result n PFactor (net_normalize_utility n u p)
  | RMarginal f v => on_result n PFactor (net_marginal n f v)
  | RRearrange f vs => on_result n PFactor (net_rearrange n f vs)
  | RTrain samples => let '(m, r) := train n samples in (m, gmap (fun _ => PDone) r)
  end.

(** ** The same call, with slices as references to arrays in memory (HeapNetModel) *)
Definition h_serve (sc : sched) (n : network nat) (rq : request nat) : heap A -> heap A * (network nat * gores (reply nat)) := fun h =>
  match rq with
  | RQuery ev q ign => let '(h', (m, r)) := h_net_solve_query sc n ev q ign h in (h', (m, gmap (fun '(ms, f) => PMarginals ms f) r))
  | RUtility ev q u ign => let '(h', (m, r)) := h_net_solve_utility sc n ev q u ign h in (h', (m, gmap PFactor r))
  | RPolicies st => let '(h', (m, r)) := h_net_solve_policies sc n st h in (h', (m, gmap PPolicies r))
  | RToEvidence v x => let '(h', r) := h_net_to_evidence n v x h in (h', (n, gmap PSlice r))
  | RNormalize f => let '(h', r) := h_net_normalize n f h in (h', on_result n PFactor r)
  | RNormalizeUtility u p => let '(h', r) := h_net_normalize_utility n u p h in (h', on_result n PFactor r)
  | RMarginal f v => let '(h', r) := h_net_marginal n f v h in (h', on_result n PFactor r)
  | RRearrange f vs => let '(h', r) := h_net_rearrange n f vs h in (h', on_result n PFactor r)
  | RTrain samples => let '(h', r) := h_train n samples h in (h', (n, gmap (fun _ => PDone) r))
  end.

(** ** What a reference stands for in memory [h] *)
Definition read_slice (h : heap A) (r : list nat) : option (list A) :=
  match r with [a] => nth_error h a | _ => None end.
Definition read_factor (h : heap A) (f : factor nat) : option (factor A) :=
  match read_slice h (f_data f) with Some d => Some (mkFactor (f_id f) (f_vars f) d) | None => None end.
Definition read_nfactor (h : heap A) (f : nfactor nat) : option (nfactor A) :=
  match nf_table f with
  | None => Some (mkNFactor (nf_for f) (nf_given f) None (nf_outcomes f) (nf_columns f))
  | Some r => match read_slice h r with
              | Some d => Some (mkNFactor (nf_for f) (nf_given f) (Some d) (nf_outcomes f) (nf_columns f))
              | None => None
              end
  end.
Fixpoint read_all {X Y} (rd : X -> option Y) (l : list X) : option (list Y) :=
  match l with
  | [] => Some []
  | x :: r => match rd x, read_all rd r with Some y, Some ys => Some (y :: ys) | _, _ => None end
  end.
Definition read_named {X Y} (rd : X -> option Y) (x : string * X) : option (string * Y) :=
  match rd (snd x) with Some y => Some (fst x, y) | None => None end.

Definition read_request (h : heap A) (rq : request nat) : option (request A) :=
  match rq with
  | RQuery ev q ign => Some (RQuery ev q ign)
  | RUtility ev q u ign => Some (RUtility ev q u ign)
  | RPolicies st => Some (RPolicies st)
  | RToEvidence v x => Some (RToEvidence v x)
  | RNormalize f => option_map RNormalize (read_factor h f)
  | RNormalizeUtility u p =>
      match read_factor h u, read_factor h p with Some u', Some p' => Some (RNormalizeUtility u' p') | _, _ => None end
  | RMarginal f v => option_map (fun f' => RMarginal f' v) (read_factor h f)
  | RRearrange f vs => option_map (fun f' => RRearrange f' vs) (read_factor h f)
  | RTrain samples => Some (RTrain samples)
  end.

Definition read_reply (h : heap A) (x : reply nat) : option (reply A) :=
  match x with
  | PMarginals m f =>
      match read_all (read_named (read_slice h)) m, read_factor h f with Some m', Some f' => Some (PMarginals m' f') | _, _ => None end
  | PFactor f => option_map PFactor (read_factor h f)
  | PPolicies m => option_map PPolicies (read_all (read_named (read_nfactor h)) m)
  | PSlice l => option_map PSlice (read_slice h l)
  | PDone => Some PDone
  end.

(** The result in memory and the result of the value model are the same. *)
Definition same_answer (h : heap A) (r : gores (reply nat)) (r' : gores (reply A)) : Prop :=
  match r, r' with
  | Ok x, Ok y => read_reply h x = Some y
  | Err e, Err e' => e = e'
  | Panic p, Panic p' => p = p'
  | _, _ => False
  end.

(** ** The arrays that a network uses, and those of a result *)
Definition table_of (f : nfactor nat) : list nat := match nf_table f with Some r => r | None => [] end.
Definition tables (n : network nat) : list nat := flat_map table_of (n_factors n).
Definition policies (n : network nat) : list nat := flat_map (fun p => f_data (snd p)) (n_policies n).
Definition reply_arrays (x : reply nat) : list nat :=
  match x with
  | PMarginals m f => flat_map snd m ++ f_data f
  | PFactor f => f_data f
  | PPolicies m => flat_map (fun p => table_of (snd p)) m
  | PSlice l => l
  | PDone => []
  end.

(** ** What a program that uses a network can do

    [program h n v mine]: memory is [h], the network is [n]; [v] is what the network is
    according to the value model after the same calls; [mine] are the arrays that the program
    has: made itself, or got as a result. *)
Inductive program : heap A -> network nat -> network A -> list nat -> Prop :=
(** New, with tables that the program does not keep *)
| p_new h name info vars factors factors' n v mine :
    read_all (read_nfactor h) factors = Some factors' ->
    net_new name info vars factors = Ok n ->
    net_new name info vars factors' = Ok v ->
    (forall a, In a mine -> (a < List.length h)%nat /\ ~ In a (tables n)) ->
    program h n v mine
(** a call that does not panic; training only if no two factors share a table *)
| p_call sc rq rq' h n v mine h' m r v' r' :
    program h n v mine -> positional sc ->
    read_request h rq = Some rq' ->
    (is_training rq = true -> NoDup (tables n)) ->
    h_serve sc n rq h = (h', (m, r)) -> serve sc v rq' = (v', r') ->
    (forall p, r <> Panic p) ->
    program h' m v' (match r with Ok x => reply_arrays x | _ => [] end ++ mine)
(** the program writes to one of its arrays *)
| p_write h n v mine a d :
    program h n v mine -> In a mine -> program (upd_nth h a d) n v mine
(** the program makes an array *)
| p_make h n v mine d :
    program h n v mine -> program (h ++ [d]) n v (List.length h :: mine)
(** other code runs, for instance another network's, and writes to no array of the network *)
| p_other h h' n v mine :
    program h n v mine -> (List.length h <= List.length h')%nat ->
    (forall a, In a (tables n) \/ In a (policies n) -> nth_error h' a = nth_error h a) ->
    program h' n v mine.

(** No array is used by both networks. *)
Definition separate (n n2 : network nat) : Prop :=
  forall a, In a (tables n) \/ In a (policies n) -> ~ (In a (tables n2) \/ In a (policies n2)).

End SpecHeap.
Arguments request A D : clear implicits.
