(** Model of the background chunking of gensim/utils.py: [InputQueue] and
    [chunkize] with [maxsize > 0], as a transition system.

    Three actors share a [multiprocessing.Queue(maxsize)]: the producer process
    (utils.py 1201-1224), the queue's feeder thread that moves items from the
    queue's buffer to the pipe, and the consumer (utils.py 1300-1306).  [put]
    needs a slot of the queue's semaphore; a slot is given back when the
    consumer has received an item. *)

From Verif Require Import Base Utils_Model.
Local Open Scope nat_scope.

Section Chunkize.
  Context {A : Type}.
  Variable chunksize : nat.
  Variable maxsize : nat.   (* slots of the semaphore *)
  Variable pipe_cap : nat.  (* items the pipe can hold *)
  (** Iterating the corpus may raise after its last item. *)
  Variable corpus_raises : bool.

  Notation item := (option (list A)).

  Inductive producer : Type :=
  | PRead (it : list A)                (* line 1204: about to read the next chunk *)
  | PPut (x : item) (it : list A)      (* lines 1214, 1223: blocked in [q.put] *)
  | PDone                              (* [break] of line 1215 *)
  | PDead.                             (* the exception of the corpus left [run] *)

  Record cstate : Type := mkC {
    c_prod : producer;
    c_buf : list item;        (* the queue's buffer *)
    c_pipe : list item;       (* the pipe *)
    c_out : list (list A);    (* chunks yielded so far *)
    c_done : bool             (* the generator has ended *)
  }.

  Definition c_init (corpus : list A) : cstate := mkC (PRead corpus) [] [] [] false.

  (** Lines 1204-1212: read a chunk; the corpus raises when asked for more items than it has. *)
  Definition read_chunk (it : list A) : producer :=
    if corpus_raises && (length it <? chunksize) then PDead
    else
      let '(chunk, it') := islice_take chunksize it in
      match chunk with
      | [] => PPut None it'
      | _ => PPut (Some chunk) it'
      end.

  Inductive cstep : cstate -> cstate -> Prop :=
  | step_read : forall it buf pipe out done,
      cstep (mkC (PRead it) buf pipe out done) (mkC (read_chunk it) buf pipe out done)
  | step_put : forall x it buf pipe out done, length buf + length pipe < maxsize ->
      cstep (mkC (PPut x it) buf pipe out done)
            (mkC (match x with None => PDone | Some _ => PRead it end) (buf ++ [x]) pipe out done)
  | step_feed : forall p x buf pipe out done, length pipe < pipe_cap ->
      cstep (mkC p (x :: buf) pipe out done) (mkC p buf (pipe ++ [x]) out done)
  | step_get_chunk : forall p buf c pipe out,
      cstep (mkC p buf (Some c :: pipe) out false) (mkC p buf pipe (out ++ [c]) false)
  | step_get_end : forall p buf pipe out,
      cstep (mkC p buf (None :: pipe) out false) (mkC p buf pipe out true).

  (** Executions of a given length. *)
  Inductive csteps : nat -> cstate -> cstate -> Prop :=
  | csteps_0 : forall s, csteps 0 s s
  | csteps_S : forall k s s' s'', csteps k s s' -> cstep s' s'' -> csteps (S k) s s''.
End Chunkize.
