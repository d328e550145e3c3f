(** C01: UnionFind is the equivalence closure of its unions. *)
From stdpp Require Import prelude gmap.
From Verif Require Import Base UnionFindModel UnionFindSpec UnionFindProofs.

(** For every history [h] of look-ups and unions on a fresh structure and all items [a], [b]: looking up [a] then [b]
    terminates without exception, the two names are equal exactly when a chain of union calls links [a] and [b], and
    the name of [a] is a member of [a]'s own set. *)
Theorem C01_same_name_iff_linked :
  forall (K : Type) (E : EqDecision K) (C : Countable K) (gtk : K -> K -> bool) (h : list (uf_op K)) (a b : K),
  exists u1 ra u2 rb,
    uf_find (uf_run gtk h uf_empty) a = Ok (u1, ra) /\ uf_find u1 b = Ok (u2, rb) /\
    (ra = rb <-> linked h a b) /\ linked h a ra /\ (mentioned h ra \/ ra = a).
Proof. exact (fun K E C gtk h a b => uf_equivalence gtk h a b). Qed.
Print Assumptions C01_same_name_iff_linked.

(** Every call terminates; the only exception is the one of [union()] without arguments, which changes nothing. *)
Theorem C01_total :
  forall (K : Type) (E : EqDecision K) (C : Countable K) (gtk : K -> K -> bool) (h : list (uf_op K)) (o : uf_op K),
  match (uf_step gtk (uf_run gtk h uf_empty) o).2 with
  | Ok _ => o <> OpUnion []
  | Err e => o = OpUnion [] /\ e = ValueError /\
             (uf_step gtk (uf_run gtk h uf_empty) o).1 = uf_run gtk h uf_empty
  end.
Proof. exact (fun K E C gtk h o => uf_never_stuck gtk h o). Qed.
Print Assumptions C01_total.

(** "As long as the set remains unchanged it will keep the same name" (class documentation). *)
Theorem C01_name_stable :
  forall (K : Type) (E : EqDecision K) (C : Countable K) (gtk : K -> K -> bool) (h : list (uf_op K)) (o : uf_op K) (a : K) u1 r,
  mentioned h a ->
  (forall xs x, o = OpUnion xs -> x ∈ xs -> ~ linked h a x) ->
  uf_find (uf_run gtk h uf_empty) a = Ok (u1, r) ->
  exists u2, uf_find (uf_run gtk (h ++ [o]) uf_empty) a = Ok (u2, r).
Proof. exact (fun K E C gtk h o a u1 r => uf_name_stable gtk h o a u1 r). Qed.
Print Assumptions C01_name_stable.

(** Iteration yields every item ever looked up or unioned, once. *)
Theorem C01_iteration :
  forall (K : Type) (E : EqDecision K) (C : Countable K) (gtk : K -> K -> bool) (h : list (uf_op K)),
  NoDup (uf_keys (uf_run gtk h uf_empty)) /\
  (forall x, x ∈ uf_keys (uf_run gtk h uf_empty) <-> mentioned h x).
Proof. exact (fun K E C gtk h => uf_iter gtk h). Qed.
Print Assumptions C01_iteration.

Definition C01_example : list (uf_op nat) :=
  [OpUnion [1; 2]; OpUnion [3; 4; 5]; OpFind 9; OpUnion [2; 4]; OpUnion []; OpFind 5; OpUnion [7; 8]].

Example C01_nonvacuous_run :
  let u := uf_run (fun a b => b <? a) C01_example uf_empty in
  (match uf_find u 1 with Ok (_, r) => Some r | Err _ => None end) =
  (match uf_find u 5 with Ok (_, r) => Some r | Err _ => None end) /\
  (match uf_find u 1 with Ok (_, r) => Some r | Err _ => None end) <>
  (match uf_find u 7 with Ok (_, r) => Some r | Err _ => None end).
Proof. vm_compute. split; congruence. Qed.

(** The hypotheses of [C01_name_stable] hold for item 9, which no union mentions. *)
Example C01_nonvacuous_stable :
  mentioned C01_example 9 /\ (forall xs x, OpUnion [1; 7] = OpUnion xs -> x ∈ xs -> ~ linked C01_example 9 x).
Proof.
  split; [exists (OpFind 9); split; [unfold C01_example; set_solver|done]|].
  intros xs x [= <-] Hx Hl.
  assert (Hne : x <> 9) by set_solver.
  inversion Hl as [|? b ? (ys & Hin & H9 & _)]; subst; [done|].
  unfold C01_example in Hin. repeat (apply elem_of_cons in Hin as [Hin|Hin]; [try done; simplify_eq; set_solver|]). set_solver.
Qed.
