(** Model of /repo/opensfm/unionfind.py (class UnionFind), lines 50-104. *)
From stdpp Require Import prelude gmap.
From Verif Require Import Base.

Section UF.
(** Keys are any hashable python objects; equality is decidable. [gtk a b] is the python comparison [a > b] between
    keys, used only to break ties between tuples [(weight, root)] in [max]: no property of it is assumed. *)
Context {K : Type} `{Countable K}.
Variable gtk : K -> K -> bool.

(** unionfind.py:67-70. A python dict keeps insertion order, which [__iter__] (93-95) exposes: the dict [parents] is a
    finite map plus the list of its keys in insertion order. [weights] is never iterated: a finite map. *)
Record uf := UF { uf_keys : list K; uf_parents : gmap K K; uf_weights : gmap K nat }.

Definition uf_empty : uf := UF [] ∅ ∅.

(** unionfind.py:81-86: [path] is stored in reverse, [path[-1]] is its head.
    The [while] loop runs on fuel; running out of it is [Err Diverges]. *)
Fixpoint uf_walk (fuel : nat) (par : gmap K K) (last : K) (rest : list K) (root : K) : res (list K * K) :=
  if decide (root = last) then Ok (last :: rest, root)
  else match fuel with
       | O => Err Diverges
       | S fuel' =>
           match par !! root with
           | None => Err KeyError
           | Some root' => uf_walk fuel' par root (last :: rest) root'
           end
       end.

(** unionfind.py:88-90: every key of [path] is already in the dict, so the order of the keys does not change.
    Python goes through [path] oldest first, here newest first: the same value is written each time. *)
Definition uf_compress (par : gmap K K) (path : list K) (root : K) : gmap K K :=
  foldr (fun a p => <[a := root]> p) par path.

(** unionfind.py:72-91. *)
Definition uf_find (u : uf) (x : K) : res (uf * K) :=
  match uf_parents u !! x with
  | None => Ok (UF (uf_keys u ++ [x]) (<[x := x]> (uf_parents u)) (<[x := 1]> (uf_weights u)), x)
  | Some p =>
      try (path, root) := uf_walk (size (uf_parents u)) (uf_parents u) x [] p in
      Ok (UF (uf_keys u) (uf_compress (uf_parents u) path root) (uf_weights u), root)
  end.

(** unionfind.py:99: the list comprehension, left to right. *)
Fixpoint uf_finds (u : uf) (xs : list K) : res (uf * list K) :=
  match xs with
  | [] => Ok (u, [])
  | x :: xs' =>
      try (u1, r) := uf_find u x in
      try (u2, rs) := uf_finds u1 xs' in
      Ok (u2, r :: rs)
  end.

(** unionfind.py:100: python's [max] keeps the first maximal element; tuples compare lexicographically. *)
Fixpoint uf_max (best : nat * K) (l : list (nat * K)) : nat * K :=
  match l with
  | [] => best
  | (w, r) :: l' =>
      let '(bw, br) := best in
      if decide (bw < w) then uf_max (w, r) l'
      else if decide (bw = w) then (if gtk r br then uf_max (w, r) l' else uf_max best l')
      else uf_max best l'
  end.

Fixpoint uf_weights_of (u : uf) (rs : list K) : res (list (nat * K)) :=
  match rs with
  | [] => Ok []
  | r :: rs' =>
      try w := of_option KeyError (uf_weights u !! r) in
      try l := uf_weights_of u rs' in
      Ok ((w, r) :: l)
  end.

(** unionfind.py:101-104. *)
Fixpoint uf_link (u : uf) (heaviest : K) (rs : list K) : res uf :=
  match rs with
  | [] => Ok u
  | r :: rs' =>
      if decide (r = heaviest) then uf_link u heaviest rs'
      else
        try wh := of_option KeyError (uf_weights u !! heaviest) in
        try wr := of_option KeyError (uf_weights u !! r) in
        uf_link (UF (uf_keys u) (<[r := heaviest]> (uf_parents u)) (<[heaviest := wh + wr]> (uf_weights u))) heaviest rs'
  end.

(** unionfind.py:97-104. [max] of an empty sequence raises ValueError. *)
Definition uf_union (u : uf) (xs : list K) : res uf :=
  try (u1, rs) := uf_finds u xs in
  try l := uf_weights_of u1 rs in
  match l with
  | [] => Err ValueError
  | c :: l' => uf_link u1 (uf_max c l').2 rs
  end.

(** A history of calls on one object. An exception leaves the object as the calls before it made it: the only one the
    code raises by itself, [union()] without arguments, is raised before anything is written. *)
Inductive uf_op := OpFind (x : K) | OpUnion (xs : list K).

Definition uf_step (u : uf) (o : uf_op) : uf * res (option K) :=
  match o with
  | OpFind x => match uf_find u x with Ok (u', r) => (u', Ok (Some r)) | Err e => (u, Err e) end
  | OpUnion xs => match uf_union u xs with Ok u' => (u', Ok None) | Err e => (u, Err e) end
  end.

Definition uf_run (h : list uf_op) (u : uf) : uf := foldl (fun u o => (uf_step u o).1) u h.
End UF.
Arguments uf K {_ _}.
Arguments uf_op : clear implicits.
