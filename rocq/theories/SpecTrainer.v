(** Specification vocabulary: a Trainer and its network in use. *)
From Coq Require Import ZArith List Bool String.
From Verif Require Import Num GoBase VarModel VEModel NetModel SpecNet TrainModel SpecTrain.
Import ListNotations.
Open Scope string_scope.
Open Scope list_scope.
Open Scope Z_scope.

Section Trainer.
Context {A : Type} {N : NumOps A}.

(** The calls a program makes on a Trainer and on its network, in any order (training.go:70-135 and
    the calls of network.go listed in SpecNet.v). *)
Inductive trainer_call : Type :=
| TAdd (smp : sample A)
| TUpdate
| TSolve (c : call (A := A)).

(** The samples that were added. *)
Definition added (cs : list trainer_call) : list (sample A) :=
  flat_map (fun c => match c with TAdd s => [s] | _ => [] end) cs.

(** The network and the trainer after the calls, and what the calls of UpdateNetwork returned.
    The program goes on after an error, a panic of AddSample or UpdateNetwork ends it. *)
Fixpoint run_trainer (n : network A) (t : trainer A) (cs : list trainer_call) : gores (network A * trainer A * list (gores unit)) :=
  match cs with
  | [] => Ok (n, t, [])
  | TAdd s :: rest => let! t' := add_sample n t (fst s) (snd s) in run_trainer n t' rest
  | TUpdate :: rest =>
      let '(n', r) := update_network n t in
      match r with
      | Panic p => Panic p
      | _ => let! (m, t', rs) := run_trainer n' t rest in Ok (m, t', r :: rs)
      end
  | TSolve c :: rest => run_trainer (after_call n c) t rest
  end.

(** The calls on the network only. *)
Definition solved_by (cs : list trainer_call) : list (call (A := A)) :=
  flat_map (fun c => match c with TSolve c => [c] | _ => [] end) cs.
End Trainer.
Arguments trainer_call A : clear implicits.
