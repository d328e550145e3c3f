(** Independent vocabulary for the server of the viewer. *)
From stdpp Require Import prelude strings.
From Verif Require Import Base ViewerModel.

(** The files below a directory *)
Inductive file_at : tree -> list string -> string -> Prop :=
  | file_here es n c : (n, File c) ∈ es -> file_at (Dir es) [n] c
  | file_below es n t path c : (n, t) ∈ es -> file_at t path c -> file_at (Dir es) (n :: path) c.
(** File systems: the names in a directory are distinct, and none is empty, "." or ".." *)
Inductive well_named : tree -> Prop :=
  | named_file c : well_named (File c)
  | named_dir es : NoDup es.*1 -> (forall n t, (n, t) ∈ es -> n <> "" /\ n <> "." /\ n <> ".." /\ well_named t) -> well_named (Dir es).
Definition contains_text (sub s : string) : Prop := exists a b, s = (a ++ sub ++ b)%string.
Definition ends_with_text (sub s : string) : Prop := exists a, s = (a ++ sub)%string.
Definition in_order (p q : list string) : Prop := String.leb (join p) (join q) = true.
