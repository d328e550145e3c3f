From stdpp Require Import prelude strings pretty.
From Coq Require Import Ascii ZArith.
From Coq Require String.
From Verif Require Import Base TextModel.

Lemma absent_nil c : absent c "".
Proof. unfold absent. simpl. set_solver. Qed.
Lemma absent_cons c a s : absent c (String a s) <-> c <> a /\ absent c s.
Proof. unfold absent. simpl. set_solver. Qed.
Lemma str_app_cons a (s1 s2 : string) : String a s1 +:+ s2 = String a (s1 +:+ s2).
Proof. reflexivity. Qed.
Lemma list_ascii_app s1 s2 : String.list_ascii_of_string (s1 +:+ s2) = String.list_ascii_of_string s1 ++ String.list_ascii_of_string s2.
Proof. induction s1 as [|a s1 IH]; [done|]; rewrite ?str_app_cons; simpl; f_equal; exact IH. Qed.
Lemma absent_app c s1 s2 : absent c (s1 +:+ s2) <-> absent c s1 /\ absent c s2.
Proof. unfold absent. rewrite list_ascii_app. set_solver. Qed.
Lemma str_app_assoc (a b c : string) : (a +:+ b) +:+ c = a +:+ b +:+ c.
Proof. induction a as [|x a IH]; [done|]; rewrite ?str_app_cons; simpl; f_equal; exact IH. Qed.
Lemma str_app_nil (a : string) : a +:+ "" = a.
Proof. induction a as [|x a IH]; [done|]; rewrite ?str_app_cons; simpl; f_equal; exact IH. Qed.

Lemma getlines_cons sep l rest : absent sep l -> getlines sep (l +:+ String sep rest) = l :: getlines sep rest.
Proof.
  induction l as [|a l IH]; intros Hl.
  - unfold String.append. simpl. by rewrite decide_True.
  - apply absent_cons in Hl as [Ha Hl]. rewrite str_app_cons. cbn [getlines]. rewrite decide_False by done. by rewrite IH.
Qed.
Lemma getlines_one sep l : absent sep l -> l <> "" -> getlines sep l = [l].
Proof.
  induction l as [|a l IH]; simpl; intros Hl Hne; [done|].
  apply absent_cons in Hl as [Ha Hl]. rewrite decide_False by done.
  destruct l as [|b l]; [done|]. by rewrite IH.
Qed.

(** * Decimal integers *)
Lemma is_nat_char x : (x < 10)%N -> is_nat (pretty_N_char x) = Some (N.to_nat x).
Proof.
  intros. assert (x = 0 ∨ x = 1 ∨ x = 2 ∨ x = 3 ∨ x = 4 ∨ x = 5 ∨ x = 6 ∨ x = 7 ∨ x = 8 ∨ x = 9)%N as Hx by lia.
  destruct_or! Hx; subst; done.
Qed.
Lemma read_digits_go x : forall acc s, (0 < x)%N -> default 0%Z acc = 0%Z ->
  read_digits acc (pretty_N_go x s) = read_digits (Some (Z.of_N x)) s.
Proof.
  induction (N.lt_wf_0 x) as [x _ IH]; intros acc s Hx Hacc.
  rewrite pretty_N_go_step by done.
  pose proof (N.mod_lt x 10 ltac:(done)) as Hm.
  pose proof (N.div_mod x 10 ltac:(done)) as Hd.
  destruct (decide (x `div` 10 = 0)%N) as [H0|H0].
  - rewrite H0, pretty_N_go_0. simpl. rewrite is_nat_char by done. rewrite Hacc. do 2 f_equal.
    rewrite N_nat_Z. lia.
  - rewrite IH; [|by apply N.div_lt|lia|done]. cbn [read_digits]. rewrite is_nat_char by done. simpl. do 2 f_equal.
    rewrite N_nat_Z. lia.
Qed.
Lemma read_digits_pretty_N x : read_digits None (pretty x) = Some (Z.of_N x).
Proof.
  unfold pretty, pretty_N. case_decide; [by subst|].
  rewrite read_digits_go; [done|lia|done].
Qed.

(** No decimal representation of a natural number contains anything but digits. *)
Lemma pretty_N_go_chars (P : ascii -> Prop) x s :
  (forall y, (y < 10)%N -> P (pretty_N_char y)) -> Forall P (String.list_ascii_of_string s) ->
  Forall P (String.list_ascii_of_string (pretty_N_go x s)).
Proof.
  intros HP. revert s. induction (N.lt_wf_0 x) as [x _ IH]; intros s Hs.
  assert (x = 0 ∨ 0 < x)%N as [->|?] by lia; [by rewrite pretty_N_go_0|].
  rewrite pretty_N_go_step by done. apply IH; [by apply N.div_lt|]. simpl. constructor; [|done]. apply HP. by apply N.mod_lt.
Qed.
Lemma pretty_N_chars (P : ascii -> Prop) (x : N) :
  (forall y, (y < 10)%N -> P (pretty_N_char y)) -> Forall P (String.list_ascii_of_string (pretty x)).
Proof.
  intros HP. unfold pretty, pretty_N. case_decide.
  - simpl. constructor; [|done]. apply (HP 0%N). done.
  - apply pretty_N_go_chars; [done|]. constructor.
Qed.
Lemma digit_char (y : N) : (y < 10)%N -> pretty_N_char y ∈ ["0"; "1"; "2"; "3"; "4"; "5"; "6"; "7"; "8"; "9"]%char.
Proof.
  intros. assert (y = 0 ∨ y = 1 ∨ y = 2 ∨ y = 3 ∨ y = 4 ∨ y = 5 ∨ y = 6 ∨ y = 7 ∨ y = 8 ∨ y = 9)%N as Hx by lia.
  destruct_or! Hx; subst; simpl; set_solver.
Qed.
Lemma pretty_N_digits (x : N) : Forall (.∈ ["0"; "1"; "2"; "3"; "4"; "5"; "6"; "7"; "8"; "9"]%char) (String.list_ascii_of_string (pretty x)).
Proof. apply pretty_N_chars. apply digit_char. Qed.
Lemma pretty_N_nonempty (x : N) : exists a s, pretty x = String a s.
Proof.
  destruct (pretty x) as [|a s] eqn:E; [|eauto]. pose proof (read_digits_pretty_N x) as H. by rewrite E in H.
Qed.
Lemma pretty_Z_eq (z : Z) : pretty z = if decide (0 <= z)%Z then pretty (Z.to_N z) else "-" +:+ pretty (Z.to_N (- z)).
Proof. destruct z as [|p|p]; case_decide; try lia; done. Qed.

Lemma skip_digit a s : a ∈ ["0"; "1"; "2"; "3"; "4"; "5"; "6"; "7"; "8"; "9"]%char ->
  strtol (String a s) = read_digits None (String a s).
Proof.
  intros Ha. repeat (apply elem_of_cons in Ha as [->|Ha]; [reflexivity|]). by apply elem_of_nil in Ha.
Qed.
Lemma strtol_pretty (z : Z) : strtol (pretty z) = Some z.
Proof.
  rewrite pretty_Z_eq. case_decide as Hz.
  - pose proof (pretty_N_digits (Z.to_N z)) as Hd. pose proof (read_digits_pretty_N (Z.to_N z)) as Hr.
    destruct (pretty_N_nonempty (Z.to_N z)) as (a & s & Hs). rewrite Hs in *.
    rewrite skip_digit; [|simpl in Hd; by inversion Hd]. rewrite Hr. f_equal. lia.
  - change ("-" +:+ pretty (Z.to_N (- z))) with (String "-" (pretty (Z.to_N (- z)))).
    transitivity (Z.opp <$> read_digits None (pretty (Z.to_N (- z)))); [reflexivity|].
    rewrite read_digits_pretty_N. simpl. f_equal. lia.
Qed.
Lemma stoi_pretty (z : Z) : int32 z -> stoi (pretty z) = Ok z.
Proof. intros Hz. unfold stoi. rewrite strtol_pretty. by rewrite decide_True. Qed.
Lemma atoi_pretty (z : Z) : atoi (pretty z) = z.
Proof. unfold atoi. by rewrite strtol_pretty. Qed.
Lemma pretty_Z_absent c (z : Z) : c ∉ ["-"; "0"; "1"; "2"; "3"; "4"; "5"; "6"; "7"; "8"; "9"]%char -> absent c (pretty z).
Proof.
  intros Hc. assert (forall x : N, absent c (pretty x)) as HN.
  { intros x Hin. pose proof (pretty_N_digits x) as Hd. rewrite Forall_forall in Hd. apply Hd in Hin. set_solver. }
  rewrite pretty_Z_eq. case_decide; [apply HN|]. rewrite str_app_cons. apply absent_cons. split; [set_solver|apply HN].
Qed.
Lemma pretty_Z_nonempty (z : Z) : pretty z <> "".
Proof. intros E. pose proof (strtol_pretty z) as H. by rewrite E in H. Qed.
Lemma starts_with_app p s : starts_with p (p +:+ s) = true.
Proof. induction p as [|a p IH]; [done|]. rewrite str_app_cons. simpl. by rewrite bool_decide_eq_true_2. Qed.
Lemma substr_from_app p s : substr_from (String.length p) (p +:+ s) = Ok s.
Proof. induction p as [|a p IH]; [done|]. rewrite str_app_cons. done. Qed.
