(** Text handling of Python used by the modelled code: str.split, str.strip, str.join, upper and lower. Texts are sequences
    of bytes; white space is ASCII white space (the non-ASCII spaces of Unicode are not modelled). *)
From stdpp Require Import prelude strings pretty.
From Coq Require Import Ascii.
From Coq Require String.
From Verif Require Import Base TextModel TextProofs.
Local Open Scope string_scope.
Local Open Scope list_scope.

(** [c.isspace()] for ASCII *)
Definition py_space (a : ascii) : bool :=
  bool_decide (a ∈ [" "; "009"; "010"; "011"; "012"; "013"; "028"; "029"; "030"; "031"]%char).
(** [s.lstrip()], [s.rstrip()], [s.strip()] *)
Fixpoint lstrip (s : string) : string :=
  match s with "" => "" | String a s' => if py_space a then lstrip s' else s end.
Fixpoint rstrip (s : string) : string :=
  match s with
  | "" => ""
  | String a s' => match rstrip s' with "" => if py_space a then "" else String a "" | r => String a r end
  end.
Definition strip (s : string) : string := rstrip (lstrip s).
(** The characters up to the first space, and the rest *)
Fixpoint span (s : string) : string * string :=
  match s with
  | "" => ("", "")
  | String a s' => if py_space a then ("", s) else let '(w, r) := span s' in (String a w, r)
  end.
(** [s.split(None, n)] *)
Fixpoint split_max (n : nat) (s : string) : list string :=
  match lstrip s with
  | "" => []
  | s' => match n with O => [s'] | S n' => let '(w, r) := span s' in w :: split_max n' r end
  end.
(** [s.split()]: the words *)
Fixpoint py_words (s : string) : list string :=
  match s with
  | "" => []
  | String a s' =>
      if py_space a then py_words s'
      else match s' with
           | "" => [String a ""]
           | String b _ => if py_space b then String a "" :: py_words s'
                           else match py_words s' with [] => [String a ""] | w :: ws => String a w :: ws end
           end
  end.
(** [sep.join(l)] *)
Fixpoint join (sep : string) (l : list string) : string :=
  match l with [] => "" | [x] => x | x :: l' => x +:+ sep +:+ join sep l' end.
(** [s.upper()], [s.lower()] for ASCII letters *)
Definition upper_char (a : ascii) : ascii :=
  let n := N_of_ascii a in if decide (97 <= n <= 122)%N then ascii_of_N (n - 32) else a.
Definition lower_char (a : ascii) : ascii :=
  let n := N_of_ascii a in if decide (65 <= n <= 90)%N then ascii_of_N (n + 32) else a.
Fixpoint str_map (f : ascii -> ascii) (s : string) : string :=
  match s with "" => "" | String a s' => String (f a) (str_map f s') end.
Definition upper := str_map upper_char.
Definition lower := str_map lower_char.

(** ** Facts *)
(** A word: not empty, no white space. *)
Definition no_space (s : string) : Prop := Forall (fun a => py_space a = false) (String.list_ascii_of_string s).
Definition word (s : string) : Prop := s <> "" /\ no_space s.

Lemma no_space_cons a s : no_space (String a s) <-> py_space a = false /\ no_space s.
Proof. unfold no_space. cbn [String.list_ascii_of_string]. by rewrite Forall_cons. Qed.
Lemma no_space_app s t : no_space (s +:+ t) <-> no_space s /\ no_space t.
Proof. unfold no_space. rewrite list_ascii_app. by rewrite Forall_app. Qed.
Lemma space_SP : py_space " " = true. Proof. reflexivity. Qed.
Lemma space_NL : py_space NL = true. Proof. reflexivity. Qed.
Lemma word_app_r s t : word s -> no_space t -> word (s +:+ t).
Proof. intros [Hn Hs] Ht. split; [destruct s; done|]. by apply no_space_app. Qed.

Lemma py_words_space a s : py_space a = true -> py_words (String a s) = py_words s.
Proof. intros H. cbn. by rewrite H. Qed.
Lemma py_words_one w : word w -> py_words w = [w].
Proof.
  intros [Hne Hs]. induction w as [|a w IH]; [done|]. apply no_space_cons in Hs as [Ha Hs]. cbn. rewrite Ha. destruct w as [|b w]; [done|].
  pose proof Hs as Hb. apply no_space_cons in Hb as [Hb _]. rewrite Hb. rewrite IH; done.
Qed.
Lemma py_words_cons w a s : word w -> py_space a = true -> py_words (w +:+ String a s) = w :: py_words s.
Proof.
  intros [Hne Hs] Hsp. induction w as [|c w IH]; [done|]. apply no_space_cons in Hs as [Hc Hs]. rewrite str_app_cons. cbn [py_words]. rewrite Hc. destruct w as [|b w].
  - change ("" +:+ String a s) with (String a s). cbv beta iota. rewrite Hsp. by rewrite py_words_space.
  - pose proof Hs as Hb. apply no_space_cons in Hb as [Hb _]. rewrite str_app_cons at 1. rewrite Hb. rewrite IH; done.
Qed.
Lemma py_words_nil s : py_words s = [] <-> lstrip s = "".
Proof.
  induction s as [|a s IH]; [done|]. cbn. destruct (py_space a); [done|]. destruct s as [|b s]; [split; done|]. destruct (py_space b); [split; done|]. destruct (py_words _); split; done.
Qed.
Lemma py_words_lstrip s : py_words (lstrip s) = py_words s.
Proof. induction s as [|a s IH]; [done|]. cbn [lstrip]. destruct (py_space a) eqn:E; [|done]. by rewrite py_words_space. Qed.
Lemma py_words_span a s : py_space a = false -> py_words (String a s) = String a (span s).1 :: py_words (span s).2.
Proof.
  revert a. induction s as [|b s IH]; intros a Ha; cbn [py_words]; rewrite Ha; [done|]. cbn [span]. destruct (py_space b) eqn:Hb; [cbn; by rewrite Hb|].
  pose proof (IH b Hb) as E. cbn [py_words] in E. rewrite Hb in E. rewrite E. by destruct (span s).
Qed.
Lemma lstrip_head s a t : lstrip s = String a t -> py_space a = false.
Proof. induction s as [|b s IH]; [done|]. cbn. destruct (py_space b) eqn:E; [done|]. intros [= -> ->]. done. Qed.
(** [split(None, n)]: the first n words, then the rest of the text if there are more *)
Lemma split_max_words n s : take n (split_max n s) = take n (py_words s) /\
  py_words <$> (split_max n s !! n) = match drop n (py_words s) with [] => None | l => Some l end /\
  (length (split_max n s) = (length (py_words s) `min` S n)%nat).
Proof.
  revert s. induction n as [|n IH]; intros s.
  - cbn [split_max take drop]. destruct (lstrip s) as [|a t] eqn:E.
    + rewrite (proj2 (py_words_nil s) E). done.
    + split; [done|]. rewrite <- (py_words_lstrip s), E. cbn [lookup list_lookup fmap option_fmap option_map].
      destruct (py_words (String a t)) eqn:E2; [|split; [done|cbn; lia]]. apply py_words_nil in E2. apply lstrip_head in E. cbn in E2. by rewrite E in E2.
  - cbn [split_max]. destruct (lstrip s) as [|a t] eqn:E.
    + rewrite (proj2 (py_words_nil s) E). done.
    + rewrite <- (py_words_lstrip s), E. apply lstrip_head in E. rewrite (py_words_span _ _ E). cbn [span]. rewrite E. destruct (span t) as [w r]. cbn [fst snd].
      destruct (IH r) as (I1 & I2 & I3). split; [by cbn; rewrite I1|]. split; [exact I2|]. cbn. by rewrite I3.
Qed.

Lemma join_cons sep x y l : join sep (x :: y :: l) = x +:+ sep +:+ join sep (y :: l).
Proof. done. Qed.
Lemma py_words_join_app l s : Forall word l -> l <> [] -> (s = "" \/ exists a t, s = String a t /\ py_space a = true) -> py_words (join " " l +:+ s) = l ++ py_words s.
Proof.
  intros Hl Hne Hs. induction Hl as [|x l Hx Hl IH]; [done|]. destruct l as [|y l].
  - cbn [join]. destruct Hs as [-> |(a & t & -> & Ha)]; [rewrite str_app_nil; by apply py_words_one|]. rewrite py_words_cons by done. by rewrite py_words_space.
  - rewrite join_cons, !str_app_assoc. change (" " +:+ (join " " (y :: l) +:+ s)) with (String " " (join " " (y :: l) +:+ s)). rewrite py_words_cons by done. rewrite IH by done. done.
Qed.
Lemma py_words_join l : Forall word l -> py_words (join " " l) = l.
Proof.
  intros Hl. destruct (decide (l = [])) as [-> |Hne]; [done|]. pose proof (py_words_join_app l "" Hl Hne (or_introl eq_refl)) as H. by rewrite str_app_nil, app_nil_r in H.
Qed.
(** Lines joined by newlines, with a newline at the end, are read back. *)
Lemma getlines_join l : Forall (absent NL) l -> getlines NL (join (String NL "") (l ++ [""])) = l.
Proof.
  induction 1 as [|x l Hx Hl IH]; [done|]. cbn [app]. destruct (l ++ [""]) as [|y l'] eqn:E; [by destruct l|].
  rewrite join_cons. rewrite <- IH. change (String NL "" +:+ ?a) with (String NL a). by rewrite getlines_cons.
Qed.
Lemma absent_join c sep l : absent c sep -> Forall (absent c) l -> absent c (join sep l).
Proof.
  intros Hs. induction 1 as [|x l Hx Hl IH]; [by apply absent_nil|]. destruct l as [|y l]; [done|]. rewrite join_cons. by rewrite !absent_app.
Qed.
Lemma word_absent c s : py_space c = true -> no_space s -> absent c s.
Proof. intros Hc Hs Hin. unfold no_space in Hs. rewrite Forall_forall in Hs. specialize (Hs _ Hin). congruence. Qed.

Lemma no_space_pretty (z : Z) : no_space (pretty z).
Proof.
  unfold no_space. apply Forall_forall. intros a Ha. destruct (py_space a) eqn:E; [|done]. exfalso.
  unfold py_space in E. apply bool_decide_eq_true in E.
  assert (a ∉ ["-"; "0"; "1"; "2"; "3"; "4"; "5"; "6"; "7"; "8"; "9"]%char) as Hn.
  { rewrite !elem_of_cons, elem_of_nil in E. destruct_or?; try done; subst a; apply (bool_decide_unpack _); vm_compute; exact I. }
  exact (pretty_Z_absent a z Hn Ha).
Qed.
Lemma word_pretty (z : Z) : word (pretty z).
Proof. split; [apply pretty_Z_nonempty|apply no_space_pretty]. Qed.

Lemma strip_nonempty s : strip s = "" <-> py_words s = [].
Proof.
  rewrite py_words_nil. unfold strip. split; [|by intros ->]. destruct (lstrip s) as [|a t] eqn:E; [done|]. cbn. apply lstrip_head in E. rewrite E. by destruct (rstrip t).
Qed.
Lemma strip_head s a t : lstrip s = String a t -> exists u, strip s = String a u.
Proof. intros E. unfold strip. rewrite E. apply lstrip_head in E. cbn. rewrite E. destruct (rstrip t); by eexists. Qed.
