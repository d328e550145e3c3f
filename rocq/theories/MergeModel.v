(** Model of /repo/opensfm/src/foundation/union_find.h and of TracksManager::MergeTracksManager
    (/repo/opensfm/src/map/src/tracks_manager.cc:353-417). *)
From stdpp Require Import prelude gmap strings pretty.
From Verif Require Import Base TracksModel TrackingModel.

(** union_find.h:8-16. An element is its index in the vector of elements; [parent] and [rank] are maps from indices.
    [rank] is an int in the code; overflow is not modelled. *)
Record cuf := CUF { c_parent : gmap nat nat; c_rank : gmap nat nat }.

(** union_find.h:18-24, recursion on fuel ([Err Diverges] when exhausted); a dangling pointer is [Err KeyError]. *)
Fixpoint cfind (fuel : nat) (par : gmap nat nat) (e : nat) : res (gmap nat nat * nat) :=
  match par !! e with
  | None => Err KeyError
  | Some p =>
      if decide (p = e) then Ok (par, p)
      else match fuel with
           | O => Err Diverges
           | S fuel' =>
               try (par1, r) := cfind fuel' par p in
               Ok (<[e := r]> par1, r)
           end
  end.

(** union_find.h:26-40 *)
Definition cunion (u : cuf) (e1 e2 : nat) : res cuf :=
  try (par1, r1) := cfind (size (c_parent u)) (c_parent u) e1 in
  try (par2, r2) := cfind (size par1) par1 e2 in
  if decide (r1 = r2) then Ok (CUF par2 (c_rank u))
  else
    try k1 := of_option KeyError (c_rank u !! r1) in
    try k2 := of_option KeyError (c_rank u !! r2) in
    if decide (k1 < k2) then Ok (CUF (<[r1 := r2]> par2) (c_rank u))
    else Ok (CUF (<[r2 := r1]> par2) (if decide (k1 = k2) then <[r1 := S k1]> (c_rank u) else c_rank u)).

(** union_find.h:47-49: groups the elements, in order, by root. *)
Fixpoint caggregate (par : gmap nat nat) (es : list nat) (agg : list (nat * list nat)) : res (list (nat * list nat)) :=
  match es with
  | [] => Ok agg
  | e :: es' => try (par1, r) := cfind (size par) par e in caggregate par1 es' (sets_add agg r e)
  end.

Section Merge.
Context {O : Type}.
Variable feature_of : O -> Z.   (* obs.feature_id *)
(** Iteration orders of the unordered maps. *)
Variable enumT : gmap string (gmap string O) -> list (string * gmap string O).
Variable enumO : gmap string O -> list (string * O).
Variable enumF : gmap (string * Z) (list nat) -> list ((string * Z) * list nat).
(** union_find.h:51-62: the clusters come out of an unordered map keyed by pointers and are then sorted by size with
    std::sort, which is not stable: the result is some permutation, in increasing order of size. *)
Variable srt : list (list nat) -> list (list nat).

(** tracks_manager.cc:371-374 *)
Definition push_features (e : nat) (obs : list (string * O)) (feats : gmap (string * Z) (list nat)) : gmap (string * Z) (list nat) :=
  foldl (fun m '(s, o) => <[(s, feature_of o) := default [] (m !! (s, feature_of o)) ++ [e]]> m) feats obs.

(** tracks_manager.cc:368-379; the second component of an element's data is the index of its manager *)
Definition collect_manager (i : nat) (m : tm O) (st : list (string * nat) * gmap (string * Z) (list nat))
    : list (string * nat) * gmap (string * Z) (list nat) :=
  foldl (fun '(els, feats) '(t, obs) => (els ++ [(t, i)], push_features (length els) (enumO obs) feats)) st (enumT (shots_per_track m)).

(** tracks_manager.cc:366-380 *)
Fixpoint collect (i : nat) (ms : list (tm O)) (st : list (string * nat) * gmap (string * Z) (list nat))
    : list (string * nat) * gmap (string * Z) (list nat) :=
  match ms with [] => st | m :: ms' => collect (S i) ms' (collect_manager i m st) end.

(** union_find.h:14-15 for [n] elements *)
Definition cinit (n : nat) : cuf :=
  CUF (list_to_map ((fun e => (e, e)) <$> seq 0 n)) (list_to_map ((fun e => (e, 0)) <$> seq 0 n)).

(** tracks_manager.cc:395-398 *)
Fixpoint union_with (u : cuf) (e1 : nat) (rest : list nat) : res cuf :=
  match rest with [] => Ok u | e2 :: rest' => try u1 := cunion u e1 e2 in union_with u1 e1 rest' end.
(** tracks_manager.cc:389-399 *)
Fixpoint union_features (u : cuf) (fs : list ((string * Z) * list nat)) : res cuf :=
  match fs with
  | [] => Ok u
  | (_, []) :: fs' => union_features u fs'
  | (_, e1 :: rest) :: fs' => try u1 := union_with u e1 rest in union_features u1 fs'
  end.

(** tracks_manager.cc:407-414 *)
Fixpoint add_cluster (ms : list (tm O)) (els : list (string * nat)) (id : string) (cluster : list nat) (merged : tm O) : res (tm O) :=
  match cluster with
  | [] => Ok merged
  | e :: cluster' =>
      try (t, i) := of_option KeyError (els !! e) in
      try m := of_option KeyError (ms !! i) in
      try track := of_option KeyError (shots_per_track m !! t) in
      add_cluster ms els id cluster' (foldl (fun acc '(s, o) => tm_add acc s id o) merged (enumO track))
  end.
(** tracks_manager.cc:403-415, std::to_string of the index *)
Fixpoint add_clusters (ms : list (tm O)) (els : list (string * nat)) (n : nat) (clusters : list (list nat)) (merged : tm O) : res (tm O) :=
  match clusters with
  | [] => Ok merged
  | c :: cs => try merged1 := add_cluster ms els (pretty n) c merged in add_clusters ms els (S n) cs merged1
  end.

(** tracks_manager.cc:353-417 *)
Definition merge_tracks_managers (ms : list (tm O)) : res (tm O) :=
  let '(els, feats) := collect 0 ms ([], ∅) in
  match els with
  | [] => Ok tm_empty
  | _ =>
      try u := union_features (cinit (length els)) (enumF feats) in
      try agg := caggregate (c_parent u) (seq 0 (length els)) [] in
      add_clusters ms els 0 (srt agg.*2) tm_empty
  end.
End Merge.
