(** What the distributed LDA protocol must guarantee. *)

From Coq Require Import List Arith Bool Permutation.
From Verif Require Import LdaDispatch_Model.
Import ListNotations.

(** The merged state [acc] holds the contribution of each job exactly as many
    times as that job was put. *)
Definition exactly_once (acc jobs : list job) : Prop := Permutation acc jobs.

(** The statistics gathered so far by all workers together. *)
Fixpoint gathered (l : list (option (list job))) : list job :=
  match l with
  | [] => []
  | Some x :: t => x ++ gathered t
  | None :: t => gathered t
  end.

(** Work left before the call the client is blocked in can return: every
    action of that period strictly decreases it. *)
Definition phase_left (W : nat) (p : phase) : nat :=
  match p with
  | Waiting => W + 2
  | Merging k _ => W + 1 - k
  | _ => 0
  end.

Definition work_left (s : state) : nat :=
  3 * length (s_queue s) + 3 * length (s_hold s) + 2 * length (s_pend s)
  + length (s_ask s) + phase_left (length (s_states s)) (s_phase s).

(** The discipline the protocol needs from the client's calls: [reset] comes first, and after a job was put the next
    reset is preceded by a [getstate]; no job is put and no state is asked
    for between [getstate] and [reset]. *)
Inductive cstate : Type := Closed | OpenClean | OpenDirty.

Definition call_next (c : cstate) (k : call) : option cstate :=
  match c, k with
  | Closed, CReset => Some OpenClean
  | OpenClean, CReset => Some OpenClean
  | OpenClean, CPut _ => Some OpenDirty
  | OpenDirty, CPut _ => Some OpenDirty
  | OpenClean, CGetstate => Some Closed
  | OpenDirty, CGetstate => Some Closed
  | _, _ => None
  end.

Fixpoint calls_from (c : cstate) (l : list call) : option cstate :=
  match l with
  | [] => Some c
  | k :: t => match call_next c k with
              | Some c' => calls_from c' t
              | None => None
              end
  end.

Definition puts (l : list call) : list job :=
  flat_map (fun k => match k with CPut j => [j] | _ => [] end) l.

(** Where the client stands, as far as that discipline is concerned. *)
Definition client_state (s : state) : option cstate :=
  match s_phase s with
  | Fresh | Returned _ => Some Closed
  | Running => match s_put s with [] => Some OpenClean | _ => Some OpenDirty end
  | _ => None
  end.
