(** Model of [Word2Vec.score] with its threads: /repo/gensim/models/word2vec.py 1691-1771, as a transition system.

    The main thread and the workers share two FIFO queues; [put] blocks on a full queue, [get] on an empty one, except that the
    main thread's [get] does not block before all jobs are pushed.  Scoring one job is one step: its scores are written in order
    (distinct jobs write distinct elements).  Scoring a sentence does not raise (see HsScore_Model).  [total_sentences] is not
    negative; logging is left out.  The sentences come from an iterator that does not raise. *)
From Verif Require Import Base TrainSched_Model Utils_Model.
Local Open Scope nat_scope.

Section Score.
Context {T F : Type}.
Variable f0 : F.
Variable score : T -> F.
Variable job_cap progress_cap : option nat.
Variable nworkers chunksize total : nat.

Definition job : Type := list (nat * T).
(** 1702-1709: the sentences of a job up to the first with a number that is too high. *)
Fixpoint in_range (j : job) : job :=
  match j with
  | [] => []
  | (i, x) :: j' => if total <=? i then [] else (i, x) :: in_range j'
  end.
Definition scored (j : job) : list (nat * F) := map (fun p => (fst p, score (snd p))) (in_range j).

Inductive sworker : Type :=
| SGet                        (* 1697 *)
| SHave (j : job)             (* 1700-1709 *)
| SPut (ns : nat)             (* 1710 *)
| SDone.                      (* 1698-1699 *)
Inductive smain : Type :=
| MNext                       (* 1733-1743 *)
| MNone (k : nat)             (* 1744-1748: [k] Nones to put *)
| MDrain                      (* 1751-1764 before the last job is pushed *)
| MWait                       (* 1751-1764 after it *)
| MOver                       (* 1766-1771 *)
| MError.                     (* 1745: [job_no] is not bound *)
Record sstate : Type := mkS {
  s_todo : list job; s_next : nat; s_jobno : option nat; s_main : smain;
  s_jobs : list (option job); s_workers : list sworker; s_progress : list nat;
  s_count : nat; s_done : nat; s_writes : list (nat * F)
}.
(** 1734: [(job_no - 1) * chunksize > total_sentences] *)
Definition cut (job_no : nat) : bool := (Z.of_nat total <? (Z.of_nat job_no - 1) * Z.of_nat chunksize)%Z.

Inductive sstep : sstate -> sstate -> Prop :=
| ss_push : forall j todo n b q ws pq c d w, cut n = false -> room job_cap q = true ->
    sstep (mkS (j :: todo) n b MNext q ws pq c d w) (mkS todo (S n) (Some n) MDrain (q ++ [Some j]) ws pq c d w)
| ss_cut : forall j todo n b q ws pq c d w, cut n = true ->
    sstep (mkS (j :: todo) n b MNext q ws pq c d w) (mkS todo (S n) (Some (n - 1)) (MNone nworkers) q ws pq c d w)
| ss_end : forall n b q ws pq c d w,
    sstep (mkS [] n (Some b) MNext q ws pq c d w) (mkS [] n (Some b) (MNone nworkers) q ws pq c d w)
| ss_unbound : forall n q ws pq c d w,
    sstep (mkS [] n None MNext q ws pq c d w) (mkS [] n None MError q ws pq c d w)
| ss_none : forall k todo n b q ws pq c d w, room job_cap q = true ->
    sstep (mkS todo n b (MNone (S k)) q ws pq c d w) (mkS todo n b (MNone k) (q ++ [None]) ws pq c d w)
| ss_pushed : forall todo n b q ws pq c d w,
    sstep (mkS todo n b (MNone 0) q ws pq c d w) (mkS todo n b MWait q ws pq c d w)
| ss_drain : forall todo n b q ws x pq c d w,
    sstep (mkS todo n b MDrain q ws (x :: pq) c d w) (mkS todo n b MDrain q ws pq (c + x) (S d) w)
| ss_empty : forall todo n b q ws c d w,
    sstep (mkS todo n b MDrain q ws [] c d w) (mkS todo n b MNext q ws [] c d w)
| ss_wait : forall todo n b q ws x pq c d w, d < b + 1 ->
    sstep (mkS todo n (Some b) MWait q ws (x :: pq) c d w) (mkS todo n (Some b) MWait q ws pq (c + x) (S d) w)
| ss_over : forall todo n b q ws pq c d w, b + 1 <= d ->
    sstep (mkS todo n (Some b) MWait q ws pq c d w) (mkS todo n (Some b) MOver q ws pq c d w)
| ss_take_job : forall todo n b m j q ws1 ws2 pq c d w,
    sstep (mkS todo n b m (Some j :: q) (ws1 ++ SGet :: ws2) pq c d w) (mkS todo n b m q (ws1 ++ SHave j :: ws2) pq c d w)
| ss_take_none : forall todo n b m q ws1 ws2 pq c d w,
    sstep (mkS todo n b m (None :: q) (ws1 ++ SGet :: ws2) pq c d w) (mkS todo n b m q (ws1 ++ SDone :: ws2) pq c d w)
| ss_score : forall todo n b m q ws1 j ws2 pq c d w,
    sstep (mkS todo n b m q (ws1 ++ SHave j :: ws2) pq c d w) (mkS todo n b m q (ws1 ++ SPut (length (scored j)) :: ws2) pq c d (w ++ scored j))
| ss_report : forall todo n b m q ws1 x ws2 pq c d w, room progress_cap pq = true ->
    sstep (mkS todo n b m q (ws1 ++ SPut x :: ws2) pq c d w) (mkS todo n b m q (ws1 ++ SGet :: ws2) (pq ++ [x]) c d w).

Inductive ssteps : nat -> sstate -> sstate -> Prop :=
| sss_refl : forall s, ssteps 0 s s
| sss_step : forall n s s' s'', ssteps n s s' -> sstep s' s'' -> ssteps (S n) s s''.

(** 1712-1728 *)
Definition score_init (sentences : list T) : sstate :=
  mkS (chunkize_serial (combine (seq 0 (length sentences)) sentences) chunksize) 0 None MNext [] (repeat SGet nworkers) [] 0 0 [].
(** 1771: [sentence_scores[:sentence_count]], an array of [total] elements that starts with zeros. *)
Definition score_array (s : sstate) : list F :=
  fold_left (fun a p => firstn (fst p) a ++ snd p :: skipn (S (fst p)) a) (s_writes s) (repeat f0 total).
Definition score_result (s : sstate) : list F := firstn (s_count s) (score_array s).
End Score.
