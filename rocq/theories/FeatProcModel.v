(** Model of the threads of /repo/opensfm/features_processing.py: readers, detectors, the bounded queue and the counter. *)
From stdpp Require Import prelude list strings.
From Verif Require Import Base.

(** A thread, by the next action it will take. [Producer*]: read_images, features_processing.py:185-210, [rest] being the
    images still to read after the current one. [Consumer*]: run_detection, 213-223. Loading an image and the detection
    itself are local to the thread and do not fail in the model. *)
Inductive thread :=
  | PPut (image : string) (rest : list string)   (* 204: queue.put(args), blocks while the queue is full *)
  | PInc (rest : list string)                    (* 205: counter.increment() *)
  | PLock (rest : list string)                   (* 206, 166: counter.value(): acquire read_lock *)
  | PVal (rest : list string)                    (* 167: next(counter) - number_of_read *)
  | PRel (value : nat) (rest : list string)      (* 168: number_of_read += 1, release; 206: compare with expected *)
  | PNone (rest : list string)                   (* 208: queue.put(None) *)
  | PDone                                        (* the chunk is finished *)
  | CGet                                         (* 215: queue.get(), blocks while the queue is empty *)
  | CDet (image : string)                        (* 220: detect(image) *)
  | CPut                                         (* 217: queue.put(None) *)
  | CDone.
(** 195, the for loop *)
Definition producer (images : list string) : thread := match images with [] => PDone | x :: l => PPut x l end.
Definition finished (t : thread) : bool := match t with PDone | CDone => true | _ => false end.

(** The queue (None: the sentinel), itertools.count, number_of_read, read_lock and the images given to detect so far. *)
Record shared := Shared { queue : list (option string); raw : nat; nread : nat; lock : bool; detected : list string }.

(** queue.Queue(maxsize): no limit when maxsize is 0 *)
Definition room (cap : nat) (q : list (option string)) : Prop := cap = 0 \/ length q < cap.

(** One atomic action of a thread. The 600 s timeout of the put of an image (204) is not modelled: it waits forever. *)
Inductive tstep (cap expected : nat) : shared -> thread -> shared -> thread -> Prop :=
  | step_put q r n k d x rest : room cap q -> tstep cap expected (Shared q r n k d) (PPut x rest) (Shared (q ++ [Some x]) r n k d) (PInc rest)
  | step_inc q r n k d rest : tstep cap expected (Shared q r n k d) (PInc rest) (Shared q (S r) n k d) (PLock rest)
  | step_lock q r n d rest : tstep cap expected (Shared q r n false d) (PLock rest) (Shared q r n true d) (PVal rest)
  | step_val q r n k d rest : tstep cap expected (Shared q r n k d) (PVal rest) (Shared q (S r) n k d) (PRel (r - n) rest)
  | step_rel q r n k d v rest : tstep cap expected (Shared q r n k d) (PRel v rest) (Shared q r (S n) false d) (if decide (v = expected) then PNone rest else producer rest)
  | step_none q r n k d rest : room cap q -> tstep cap expected (Shared q r n k d) (PNone rest) (Shared (q ++ [None]) r n k d) (producer rest)
  | step_get x q r n k d : tstep cap expected (Shared (Some x :: q) r n k d) CGet (Shared q r n k d) (CDet x)
  | step_get_none q r n k d : tstep cap expected (Shared (None :: q) r n k d) CGet (Shared q r n k d) CPut
  | step_detect x q r n k d : tstep cap expected (Shared q r n k d) (CDet x) (Shared q r n k (d ++ [x])) CGet
  | step_stop q r n k d : room cap q -> tstep cap expected (Shared q r n k d) CPut (Shared (q ++ [None]) r n k d) CDone.

(** The pool of parallel_map, context.py:22-42 (joblib's threading backend with batches of one task): tasks are started in
    order, at most [jobs] run at a time. *)
Record state := State { sh : shared; running : list thread; waiting : list thread }.
Definition active (ts : list thread) : nat := length (filter (fun t => finished t = false) ts).
Inductive step (cap expected jobs : nat) : state -> state -> Prop :=
  | step_thread s s' ts1 t t' ts2 w : tstep cap expected s t s' t' -> step cap expected jobs (State s (ts1 ++ t :: ts2) w) (State s' (ts1 ++ t' :: ts2) w)
  | step_start s ts t w : active ts < jobs -> step cap expected jobs (State s ts (t :: w)) (State s (ts ++ [t]) w).

(** Number of readers and their chunks, features_processing.py:87-102. Divisions of counts by counts, exact in floating
    point. *)
Definition ceil_div (a b : nat) : nat := (a + b - 1) / b.
Definition plan (images : list string) (processes read_processes : nat) : res (list (list string)) :=
  let rp := if decide (2 * processes <= 3 * read_processes) then 1 `max` (processes / 2) else read_processes in
  if decide (rp = 0) then Err ZeroDivisionError else
  let chunk_size := ceil_div (length images) rp in
  if decide (chunk_size = 0) then Err ZeroDivisionError else
  let chunks_count := ceil_div (length images) chunk_size in
  let rp := rp `min` chunks_count in
  Ok (map (fun i => take ((i + 1) * chunk_size - i * chunk_size) (drop (i * chunk_size) images)) (seq 0 rp)).
(** 85-110 with more than one process: the arguments given to parallel_map; [jobs] is min(processes, number of tasks) *)
Definition start (images : list string) (processes : nat) (chunks : list (list string)) : state :=
  State (Shared [] 0 0 false []) [] (map producer chunks ++ replicate processes CGet).
Definition jobs (processes : nat) (chunks : list (list string)) : nat := processes `min` (length chunks + processes).

(** 79-84, a single process: the same functions called one after the other on one thread; None: blocks forever *)
Definition put {A} (cap : nat) (q : list A) (x : A) : option (list A) := if decide (cap = 0 \/ length q < cap) then Some (q ++ [x]) else None.
Fixpoint drain (cap : nat) (fuel : nat) (q : list (option string)) (d : list string) : option (list (option string) * list string) :=
  match fuel, q with
  | S fuel', Some x :: q' => drain cap fuel' q' (d ++ [x])
  | S fuel', None :: q' => q'' ← put cap q' None; Some (q'', d)
  | _, _ => None
  end.
Fixpoint one_process (cap : nat) (images : list string) (q : list (option string)) (d : list string) : option (list (option string) * list string) :=
  match images with
  | [] => Some (q, d)
  | x :: l =>
      q1 ← put cap q (Some x);            (* read_images: put, the counter reaches 1 = expected, put None *)
      q2 ← put cap q1 None;
      qd ← drain cap (S (length q2)) q2 d; (* run_detection *)
      match qd.1 with [] => None | _ :: q3 => one_process cap l q3 qd.2 end (* process_queue.get() *)
  end.
