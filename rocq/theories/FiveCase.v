(** * C91: a case worked out with rational numbers *)
From stdpp Require Import prelude.
From Coq Require Import QArith Qreals Reals Lra.
From Verif Require Import Base Lin P3pProofs EssModel EssSpec EssProofs FiveModel FiveSpec FiveProofs FiveProps.
Local Open Scope R_scope.

(** Rational copies of the polynomials and of the elimination *)
Definition at_q (l : list Q) (k : nat) : Q := nth k l 0%Q.
Definition rep (l : list Q) (p : poly) : Prop := forall k, (k < 20)%nat -> p k = Q2R (at_q l k).
Definition zip_q (f : Q -> Q -> Q) (a b : list Q) : list Q := (fun k => Qred (f (at_q a k) (at_q b k))) <$> seq 0 20.
Definition o1_q (a b : list Q) : list Q := Qred <$>
  [0; 0; 0; 0; 0; 0; 0; 0; 0; 0;
   at_q a 16 * at_q b 16; at_q a 16 * at_q b 17 + at_q a 17 * at_q b 16; at_q a 17 * at_q b 17; at_q a 16 * at_q b 18 + at_q a 18 * at_q b 16; at_q a 17 * at_q b 18 + at_q a 18 * at_q b 17; at_q a 18 * at_q b 18;
   at_q a 16 * at_q b 19 + at_q a 19 * at_q b 16; at_q a 17 * at_q b 19 + at_q a 19 * at_q b 17; at_q a 18 * at_q b 19 + at_q a 19 * at_q b 18; at_q a 19 * at_q b 19]%Q.
Definition o2_q (a b : list Q) : list Q := Qred <$>
  [at_q a 10 * at_q b 16; at_q a 10 * at_q b 17 + at_q a 11 * at_q b 16; at_q a 11 * at_q b 17 + at_q a 12 * at_q b 16; at_q a 12 * at_q b 17; at_q a 10 * at_q b 18 + at_q a 13 * at_q b 16;
   at_q a 11 * at_q b 18 + at_q a 14 * at_q b 16 + at_q a 13 * at_q b 17; at_q a 12 * at_q b 18 + at_q a 14 * at_q b 17; at_q a 13 * at_q b 18 + at_q a 15 * at_q b 16; at_q a 14 * at_q b 18 + at_q a 15 * at_q b 17; at_q a 15 * at_q b 18;
   at_q a 10 * at_q b 19 + at_q a 16 * at_q b 16; at_q a 11 * at_q b 19 + at_q a 16 * at_q b 17 + at_q a 17 * at_q b 16; at_q a 12 * at_q b 19 + at_q a 17 * at_q b 17; at_q a 13 * at_q b 19 + at_q a 16 * at_q b 18 + at_q a 18 * at_q b 16;
   at_q a 14 * at_q b 19 + at_q a 17 * at_q b 18 + at_q a 18 * at_q b 17; at_q a 15 * at_q b 19 + at_q a 18 * at_q b 18; at_q a 16 * at_q b 19 + at_q a 19 * at_q b 16; at_q a 17 * at_q b 19 + at_q a 19 * at_q b 17; at_q a 18 * at_q b 19 + at_q a 19 * at_q b 18; at_q a 19 * at_q b 19]%Q.
Lemma Q2R_red q : Q2R (Qred q) = Q2R q. Proof. apply Qeq_eqR, Qred_correct. Qed.
Lemma Q2R_zero : Q2R 0 = 0. Proof. unfold Q2R. cbn. lra. Qed.
Lemma at_q_zip f a b k : (k < 20)%nat -> at_q (zip_q f a b) k = Qred (f (at_q a k) (at_q b k)).
Proof. intros Hk. unfold zip_q. set (g := fun k => Qred (f (at_q a k) (at_q b k))). do 20 (destruct k as [|k]; [reflexivity|]). lia. Qed.
Ltac lit := repeat constructor.
Lemma at_q_red l k : Q2R (at_q (Qred <$> l) k) = Q2R (at_q l k).
Proof. unfold at_q. revert k. induction l as [|x l IH]; intros k; [reflexivity|]. destruct k as [|k]; [apply Q2R_red|apply IH]. Qed.
Lemma rep_o1 a b p q : rep a p -> rep b q -> rep (o1_q a b) (o1 p q).
Proof.
  intros Ha Hb k Hk. unfold o1, coefficients. rewrite (Ha 16%nat), (Ha 17%nat), (Ha 18%nat), (Ha 19%nat), (Hb 16%nat), (Hb 17%nat), (Hb 18%nat), (Hb 19%nat) by lit. unfold o1_q. rewrite at_q_red.
  generalize (at_q a 16) (at_q a 17) (at_q a 18) (at_q a 19) (at_q b 16) (at_q b 17) (at_q b 18) (at_q b 19). clear - Hk. intros a16 a17 a18 a19 b16 b17 b18 b19.
  do 20 (destruct k as [|k]; [unfold at_q; cbn [nth]; rewrite ?Q2R_plus, ?Q2R_mult, ?Q2R_zero; reflexivity|]). lia.
Qed.
Lemma rep_o2 a b p q : rep a p -> rep b q -> rep (o2_q a b) (o2 p q).
Proof.
  intros Ha Hb k Hk. unfold o2, coefficients. rewrite (Ha 10%nat), (Ha 11%nat), (Ha 12%nat), (Ha 13%nat), (Ha 14%nat), (Ha 15%nat), (Ha 16%nat), (Ha 17%nat), (Ha 18%nat), (Ha 19%nat), (Hb 16%nat), (Hb 17%nat), (Hb 18%nat), (Hb 19%nat) by lit. unfold o2_q. rewrite at_q_red.
  generalize (at_q a 10) (at_q a 11) (at_q a 12) (at_q a 13) (at_q a 14) (at_q a 15) (at_q a 16) (at_q a 17) (at_q a 18) (at_q a 19) (at_q b 16) (at_q b 17) (at_q b 18) (at_q b 19). clear - Hk. intros a10 a11 a12 a13 a14 a15 a16 a17 a18 a19 b16 b17 b18 b19.
  do 20 (destruct k as [|k]; [unfold at_q; cbn [nth]; rewrite ?Q2R_plus, ?Q2R_mult, ?Q2R_zero; reflexivity|]). lia.
Qed.
Definition add_q := zip_q Qplus. Definition sub_q := zip_q Qminus.
Lemma rep_add a b p q : rep a p -> rep b q -> rep (add_q a b) (padd p q). Proof. intros Ha Hb k Hk. unfold add_q, padd. rewrite at_q_zip, Q2R_red, Q2R_plus, (Ha k), (Hb k) by exact Hk. reflexivity. Qed.
Lemma rep_sub a b p q : rep a p -> rep b q -> rep (sub_q a b) (psub p q). Proof. intros Ha Hb k Hk. unfold sub_q, psub. rewrite at_q_zip, Q2R_red, Q2R_minus, (Ha k), (Hb k) by exact Hk. reflexivity. Qed.
Definition half_q (a : list Q) : list Q := zip_q (fun x _ => (1 # 2) * x)%Q a [].
Lemma rep_half a p : rep a p -> rep (half_q a) (fun n => / 2 * p n).
Proof. intros Ha k Hk. unfold half_q. rewrite at_q_zip, Q2R_red, Q2R_mult, (Ha k) by exact Hk. f_equal. unfold Q2R. cbn. lra. Qed.
Definition EET_q (E : nat -> nat -> list Q) (i j : nat) : list Q :=
  let upper i j := add_q (add_q (o1_q (E i 0%nat) (E j 0%nat)) (o1_q (E i 1%nat) (E j 1%nat))) (o1_q (E i 2%nat) (E j 2%nat)) in
  if (i <=? j)%nat then upper i j else upper j i.
Definition L_q (E : nat -> nat -> list Q) (i j : nat) : list Q :=
  if (i =? j)%nat then sub_q (EET_q E i j) (half_q (add_q (add_q (EET_q E 0 0) (EET_q E 1 1)) (EET_q E 2 2))) else EET_q E i j.
Definition det_q (E : nat -> nat -> list Q) : list Q :=
  add_q (add_q (o2_q (sub_q (o1_q (E 0 1)%nat (E 1 2)%nat) (o1_q (E 0 2)%nat (E 1 1)%nat)) (E 2 0)%nat)
               (o2_q (sub_q (o1_q (E 0 2)%nat (E 1 0)%nat) (o1_q (E 0 0)%nat (E 1 2)%nat)) (E 2 1)%nat))
        (o2_q (sub_q (o1_q (E 0 0)%nat (E 1 1)%nat) (o1_q (E 0 1)%nat (E 1 0)%nat)) (E 2 2)%nat).
Definition LE_q (E : nat -> nat -> list Q) (i j : nat) : list Q := add_q (add_q (o2_q (L_q E i 0) (E 0%nat j)) (o2_q (L_q E i 1) (E 1%nat j))) (o2_q (L_q E i 2) (E 2%nat j)).
Section polynomials.
  Context (E : nat -> nat -> poly) (Eq : nat -> nat -> list Q) (HE : forall i j, rep (Eq i j) (E i j)).
  Lemma rep_EET i j : rep (EET_q Eq i j) (EET_poly E i j).
  Proof. unfold EET_q, EET_poly. destruct (i <=? j)%nat; (apply rep_add; [apply rep_add|]; apply rep_o1; apply HE). Qed.
  Lemma rep_L i j : rep (L_q Eq i j) (L_poly E i j).
  Proof. unfold L_q, L_poly. destruct (i =? j)%nat; [|apply rep_EET]. apply rep_sub; [apply rep_EET|]. apply (rep_half _ (padd (padd _ _) _)). apply rep_add; [apply rep_add|]; apply rep_EET. Qed.
  Lemma rep_det : rep (det_q Eq) (determinant_poly E).
  Proof. unfold det_q, determinant_poly. apply rep_add; [apply rep_add|]; (apply rep_o2; [apply rep_sub; apply rep_o1; apply HE|apply HE]). Qed.
  Lemma rep_LE i j : rep (LE_q Eq i j) (LE_poly E i j).
  Proof. unfold LE_q, LE_poly. apply rep_add; [apply rep_add|]; (apply rep_o2; [apply rep_L|apply HE]). Qed.
End polynomials.
(** Matrices *)
Definition row_q (M : list (list Q)) (r : nat) : list Q := nth r M [].
Definition rep_m (Mq : list (list Q)) (M : matrix) : Prop := length Mq = 10%nat /\ forall r, (r < 10)%nat -> rep (row_q Mq r) (M r).
Definition set_q (M : list (list Q)) (i : nat) (row : list Q) : list (list Q) := <[i := row]> M.
Lemma rep_set Mq M i l f : (i < 10)%nat -> rep_m Mq M -> rep l f -> rep_m (set_q Mq i l) (set_row M i f).
Proof.
  intros Hi [L H] Hl. split; [unfold set_q; now rewrite insert_length|]. intros r Hr. unfold row_q, set_q, set_row. destruct (Nat.eqb_spec r i) as [-> |N].
  - assert (nth i (<[i:=l]> Mq) [] = l) as ->; [|exact Hl]. rewrite nth_lookup, list_lookup_insert by lia. reflexivity.
  - assert (nth r (<[i:=l]> Mq) [] = row_q Mq r) as ->; [|now apply H]. unfold row_q. rewrite !nth_lookup, list_lookup_insert_ne by congruence. reflexivity.
Qed.
Definition below_q (i : nat) (M : list (list Q)) (j : nat) : list (list Q) :=
  let elem := at_q (row_q M j) i in if Qeq_bool elem 0 then M else set_q M j (zip_q (fun x y => x / elem - y)%Q (row_q M j) (row_q M i)).
Definition eliminate_q (M : option (list (list Q))) (i : nat) : option (list (list Q)) :=
  match M with
  | None => None
  | Some M =>
      let d := at_q (row_q M i) i in
      if Qeq_bool d 0 then None else Some (foldl (below_q i) (set_q M i (zip_q (fun x _ => x / d)%Q (row_q M i) [])) (seq (i + 1) (10 - (i + 1))))
  end.
Definition above_q (i : nat) (M : list (list Q)) (j : nat) : list (list Q) := set_q M j (let f := at_q (row_q M j) i in zip_q (fun x y => x - f * y)%Q (row_q M j) (row_q M i)).
Definition substitute_q (M : list (list Q)) (i : nat) : list (list Q) := foldl (above_q i) M (seq 0 i).
Definition gauss_q (M : list (list Q)) : option (list (list Q)) := match foldl eliminate_q (Some M) (seq 0 10) with None => None | Some M => Some (foldl substitute_q M (rev (seq 0 10))) end.
Lemma Qeq_bool_R q : Qeq_bool q 0 = true <-> Q2R q = 0.
Proof. rewrite Qeq_bool_iff. rewrite <- Q2R_zero. split; [apply Qeq_eqR|apply eqR_Qeq]. Qed.
Lemma rep_below Mq M i j : (i < 10)%nat -> (j < 10)%nat -> rep_m Mq M -> rep_m (below_q i Mq j) (eliminate_below i M j).
Proof.
  intros Hi Hj H. pose proof H as [L R]. unfold below_q, eliminate_below. rewrite (R j Hj i) by lia. set (e := at_q (row_q Mq j) i). destruct (Qeq_bool e 0) eqn:Z; destruct (Req_EM_T (Q2R e) 0) as [Zr|Zr].
  - exact H.
  - apply Qeq_bool_R in Z. contradiction.
  - apply Qeq_bool_R in Zr. congruence.
  - apply rep_set; [exact Hj|exact H|]. intros k Hk. rewrite at_q_zip, Q2R_red, Q2R_minus, Q2R_div by (exact Hk || (intros E; apply Zr; rewrite <- Q2R_zero; now apply Qeq_eqR)). rewrite (R j Hj k), (R i Hi k) by exact Hk. reflexivity.
Qed.
Lemma rep_below_all Mq M i js : (i < 10)%nat -> (forall j, j ∈ js -> (j < 10)%nat) -> rep_m Mq M -> rep_m (foldl (below_q i) Mq js) (foldl (eliminate_below i) M js).
Proof. intros Hi. revert Mq M. induction js as [|j js IH]; intros Mq M Hj H; [exact H|]. cbn [foldl]. apply IH; [intros k Hk; apply Hj; now right|]. apply rep_below; [exact Hi|apply Hj; left|exact H]. Qed.
Lemma rep_eliminate Mq M i Mq' : (i < 10)%nat -> rep_m Mq M -> eliminate_q (Some Mq) i = Some Mq' -> exists M', eliminate (Some M) i = Some M' /\ rep_m Mq' M'.
Proof.
  intros Hi H. pose proof H as [L R]. unfold eliminate_q, eliminate. rewrite (R i Hi i) by lia. set (d := at_q (row_q Mq i) i). destruct (Qeq_bool d 0) eqn:Z; [discriminate|]. intros E. apply (inj Some) in E. subst Mq'. destruct (Req_EM_T (Q2R d) 0) as [Zr|Zr]; [apply Qeq_bool_R in Zr; congruence|]. eexists. split; [reflexivity|].
  apply rep_below_all; [exact Hi|intros j Hj; apply elem_of_seq in Hj; lia|]. apply rep_set; [exact Hi|exact H|]. intros k Hk. rewrite at_q_zip, Q2R_red, Q2R_div by (exact Hk || (intros E; apply Zr; rewrite <- Q2R_zero; now apply Qeq_eqR)). rewrite (R i Hi k) by exact Hk. reflexivity.
Qed.
Lemma rep_forward is Mq M Mq' : (forall i, i ∈ is -> (i < 10)%nat) -> rep_m Mq M -> foldl eliminate_q (Some Mq) is = Some Mq' -> exists M', foldl eliminate (Some M) is = Some M' /\ rep_m Mq' M'.
Proof.
  revert Mq M. induction is as [|i is IH]; intros Mq M Hi H; [intros E; apply (inj Some) in E; subst Mq'; exists M; split; [reflexivity|exact H]|]. change (foldl eliminate_q (Some Mq) (i :: is)) with (foldl eliminate_q (eliminate_q (Some Mq) i) is). change (foldl eliminate (Some M) (i :: is)) with (foldl eliminate (eliminate (Some M) i) is).
  destruct (eliminate_q (Some Mq) i) as [Mq1|] eqn:E.
  - destruct (rep_eliminate Mq M i Mq1) as (M1 & -> & H1); [apply Hi; left|exact H|exact E|]. apply IH; [intros k Hk; apply Hi; now right|exact H1].
  - intros F. exfalso. clear -F. induction is as [|i is IH]; [discriminate|apply IH, F].
Qed.
Lemma rep_above Mq M i j : (i < 10)%nat -> (j < 10)%nat -> rep_m Mq M -> rep_m (above_q i Mq j) (substitute_above i M j).
Proof.
  intros Hi Hj H. pose proof H as [L R]. unfold above_q, substitute_above. cbv zeta. rewrite (R j Hj i) by lia. apply rep_set; [exact Hj|exact H|]. intros k Hk. rewrite at_q_zip, Q2R_red, Q2R_minus, Q2R_mult, (R j Hj k), (R i Hi k) by exact Hk. reflexivity.
Qed.
Lemma rep_substitute Mq M i : (i < 10)%nat -> rep_m Mq M -> rep_m (substitute_q Mq i) (substitute M i).
Proof.
  intros Hi. unfold substitute_q, substitute. assert (forall j, j ∈ seq 0 i -> (j < 10)%nat) as Hj by (intros j Hj; apply elem_of_seq in Hj; lia). revert Mq M Hj. generalize (seq 0 i). intros js. induction js as [|j js IH]; intros Mq M Hj H; [exact H|]. cbn [foldl]. apply IH; [intros k Hk; apply Hj; now right|]. apply rep_above; [exact Hi|apply Hj; left|exact H].
Qed.
Lemma rep_backward is Mq M : (forall i, i ∈ is -> (i < 10)%nat) -> rep_m Mq M -> rep_m (foldl substitute_q Mq is) (foldl substitute M is).
Proof. revert Mq M. induction is as [|i is IH]; intros Mq M Hi H; [exact H|]. cbn [foldl]. apply IH; [intros k Hk; apply Hi; now right|]. apply rep_substitute; [apply Hi; left|exact H]. Qed.
Lemma rep_gauss Mq M Mq' : rep_m Mq M -> gauss_q Mq = Some Mq' -> exists M', FivePointsGaussJordan M = Some M' /\ rep_m Mq' M'.
Proof.
  intros H. unfold gauss_q, FivePointsGaussJordan. destruct (foldl eliminate_q (Some Mq) (seq 0 10)) as [Mq1|] eqn:E; [|discriminate]. intros F. apply (inj Some) in F. subst Mq'. destruct (rep_forward (seq 0 10) Mq M Mq1) as (M1 & -> & H1); [intros i Hi; apply elem_of_seq in Hi; lia|exact H|exact E|].
  eexists. split; [reflexivity|]. apply rep_backward; [|exact H1]. intros i Hi. apply elem_of_list_In, in_rev, elem_of_list_In, elem_of_seq in Hi. lia.
Qed.
(** ** The case *)
Definition five : list (vec * vec) := [(Vec 1 (-1) 0, Vec 1 (-1) 0); (Vec 0 (-1) 1, Vec 0 0 (-1)); (Vec (-1) 1 (-1), Vec (-1) 1 (-1)); (Vec 1 0 1, Vec (-1) 0 (-1)); (Vec (-1) 0 (-1), Vec (-1) 0 1)].
Definition b_five : basis_of := (Mat 0 1 0 0 1 (-1) (-1) 1 1, Mat 1 0 (-1) 0 (-1) 0 1 (-1) (-1), Mat 0 0 0 (-1) (-1) 0 0 0 0, Mat 0 (-1) 0 1 0 0 0 0 0).
Definition E_five (i j : nat) : list Q :=
  let e l := nth (3 * i + j) l 0%Q in
  [0; 0; 0; 0; 0; 0; 0; 0; 0; 0; 0; 0; 0; 0; 0; 0; e [0; 1; 0; 0; 1; -1; -1; 1; 1]; e [1; 0; -1; 0; -1; 0; 1; -1; -1]; e [0; 0; 0; -1; -1; 0; 0; 0; 0]; e [0; -1; 0; 1; 0; 0; 0; 0; 0]]%Q.
Lemma rep_E_five i j : rep (E_five i j) (E_poly b_five i j).
Proof.
  assert (Q2R 1 = 1) as Q1 by (unfold Q2R; cbn; lra). assert (Q2R (-1) = -1) as Qm by (unfold Q2R; cbn; lra).
  intros k Hk. unfold E_poly, b_five, E_five, coefficients, entry, entries, at_q. cbn [m11 m12 m13 m21 m22 m23 m31 m32 m33]. generalize (3 * i + j)%nat. intros n. do 16 (destruct k as [|k]; [cbn [nth]; symmetry; apply Q2R_zero|]).
  do 4 (destruct k as [|k]; [cbn [nth]; do 9 (destruct n as [|n]; [cbn [nth]; symmetry; first [apply Q2R_zero|apply Q1|apply Qm]|]); destruct n; cbn [nth]; symmetry; apply Q2R_zero|]). lia.
Qed.
Definition M_five : list (list Q) := Eval vm_compute in det_q E_five :: (i ← seq 0 3; j ← seq 0 3; [LE_q E_five i j]).
Lemma rep_M_five : rep_m M_five (FivePointsPolynomialConstraints b_five).
Proof.
  assert (M_five = det_q E_five :: (i ← seq 0 3; j ← seq 0 3; [LE_q E_five i j])) as -> by (vm_compute; reflexivity). split; [reflexivity|]. intros r Hr. unfold FivePointsPolynomialConstraints, row_q. cbn [seq mbind list_bind app].
  destruct r as [|r]; [cbn [nth]; apply rep_det, rep_E_five|]. do 9 (destruct r as [|r]; [cbn [nth]; apply rep_LE, rep_E_five|]). lia.
Qed.
Definition G_five : list (list Q) := Eval vm_compute in default [] (gauss_q M_five).
Lemma eliminated : exists M, FivePointsGaussJordan (FivePointsPolynomialConstraints b_five) = Some M /\ rep_m G_five M.
Proof. apply (rep_gauss M_five); [apply rep_M_five|]. vm_compute. reflexivity. Qed.
Definition z_axis5 : vec := Vec 0 0 1.
Lemma five_basis : basis_of_solutions five b_five.
Proof.
  split.
  - intros F. split.
    + intros H. assert (forall s, In s five -> epipolar F s = 0) as G by (intros s Hs; apply H, elem_of_list_In, Hs). clear H. unfold five in G. pose proof (G (Vec 1 (-1) 0, Vec 1 (-1) 0) ltac:(cbn; tauto)) as G1. pose proof (G (Vec 0 (-1) 1, Vec 0 0 (-1)) ltac:(cbn; tauto)) as G2. pose proof (G (Vec (-1) 1 (-1), Vec (-1) 1 (-1)) ltac:(cbn; tauto)) as G3. pose proof (G (Vec 1 0 1, Vec (-1) 0 (-1)) ltac:(cbn; tauto)) as G4. pose proof (G (Vec (-1) 0 (-1), Vec (-1) 0 1) ltac:(cbn; tauto)) as G5. clear G.
      destruct F as [f1 f2 f3 f4 f5 f6 f7 f8 f9]. unfold epipolar, dot, mvec in *. cbn [fst snd vx vy vz m11 m12 m13 m21 m22 m23 m31 m32 m33] in *. exists (- f6), f1, (- f6 - f2 - f4), (- f6 - f2). unfold at_point, b_five, madd, mscale. cbn [m11 m12 m13 m21 m22 m23 m31 m32 m33]. f_equal; lra.
    + intros (x & y & z & w & ->) s Hs. unfold five in Hs. rewrite !elem_of_cons, elem_of_nil in Hs. unfold at_point, b_five, epipolar, dot, mvec, madd, mscale. cbn [m11 m12 m13 m21 m22 m23 m31 m32 m33]. destruct Hs as [-> |[-> |[-> |[-> |[-> |[]]]]]]; cbn [fst snd vx vy vz]; ring.
  - intros x y z w H. unfold at_point, b_five, madd, mscale, mI in H. cbn [m11 m12 m13 m21 m22 m23 m31 m32 m33] in H. pose proof (f_equal m11 H) as H1. pose proof (f_equal m12 H) as H2. pose proof (f_equal m21 H) as H3. pose proof (f_equal m23 H) as H4. cbn [m11 m12 m13 m21 m22 m23 m31 m32 m33] in *. lra.
Qed.
(** The motion along the z axis is found *)
Example five_found : exists l c, EssentialFivePoints (fun _ => b_five) (fun _ => [fun k => (if (k =? 9)%nat then 1 else 0, 0)]) five = Some l /\ c * c = / 2 /\ mscale c (essential mI z_axis5) ∈ l.
Proof.
  destruct eliminated as (M & HM & _ & HR). assert (essential mI z_axis5 = Mat 0 (-1) 0 1 0 0 0 0 0) as EE. { unfold essential, skew, z_axis5, mmul, mI. cbn [m11 m12 m13 m21 m22 m23 m31 m32 m33 vx vy vz]. f_equal; ring. }
  assert (forall r c q, (r < 10)%nat -> (c < 20)%nat -> at_q (row_q G_five r) c = q -> M r c = IZR (Qnum q) / IZR (Zpos (Qden q))) as Rd. { intros r c q Hr Hc <-. rewrite (HR r Hr c Hc). reflexivity. }
  assert (forall v, (forall i, (i < 10)%nat -> weighted (action_matrix M i) (v <$> seq 0 10) = 0 * v i) -> forall i, (i < 9)%nat -> v i = 0) as Ker.
  { intros v Hv. pose proof (Hv 0%nat ltac:(lia)) as V0. pose proof (Hv 1%nat ltac:(lia)) as V1. pose proof (Hv 2%nat ltac:(lia)) as V2. pose proof (Hv 3%nat ltac:(lia)) as V3. pose proof (Hv 4%nat ltac:(lia)) as V4. pose proof (Hv 5%nat ltac:(lia)) as V5. pose proof (Hv 6%nat ltac:(lia)) as V6. pose proof (Hv 7%nat ltac:(lia)) as V7. pose proof (Hv 8%nat ltac:(lia)) as V8. pose proof (Hv 9%nat ltac:(lia)) as V9. clear Hv.
    rewrite weighted_ten in *. unfold action_matrix in *. cbn [nth Nat.eqb Nat.add] in *.
    repeat match goal with H : context [M ?r ?c] |- _ => rewrite (Rd r c _ ltac:(lia) ltac:(lia) eq_refl) in H end. unfold G_five, row_q, at_q in *. cbn [nth Qnum Qden] in *.
    intros i Hi. do 9 (destruct i as [|i]; [lra|]). lia. }
  apply (C91_complete (fun _ => b_five) _ five mI z_axis5 M).
  - apply five_basis.
  - cbn. lia.
  - apply rotation_I.
  - unfold dot, z_axis5. cbn. ring.
  - rewrite EE. intros s Hs. unfold five in Hs. rewrite !elem_of_cons, elem_of_nil in Hs. unfold epipolar, dot, mvec. destruct Hs as [-> |[-> |[-> |[-> |[-> |[]]]]]]; cbn [fst snd vx vy vz m11 m12 m13 m21 m22 m23 m31 m32 m33]; ring.
  - exact HM.
  - rewrite EE. intros x y z H. unfold at_point, b_five, madd, mscale in H. cbn [m11 m12 m13 m21 m22 m23 m31 m32 m33] in H. pose proof (f_equal m11 H) as H1. pose proof (f_equal m12 H) as H2. pose proof (f_equal m21 H) as H3. pose proof (f_equal m23 H) as H4. cbn [m11 m12 m13 m21 m22 m23 m31 m32 m33] in *. lra.
  - rewrite EE. intros k x y z H. assert (x = 0) as ->. { unfold at_point, b_five, madd, mscale in H. pose proof (f_equal m23 H) as H4. cbn [m11 m12 m13 m21 m22 m23 m31 m32 m33] in *. lra. }
    split.
    + intros v w [(i & Hi & Nv) Hv] [_ Hw]. assert (v 9%nat <> 0) as N9. { destruct (decide (i = 9)%nat) as [-> |N]; [exact Nv|]. exfalso. apply Nv, (Ker v Hv). lia. }
      exists (w 9%nat / v 9%nat). intros j Hj. destruct (decide (j = 9)%nat) as [-> |N]; [field; exact N9|]. rewrite (Ker v Hv j), (Ker w Hw j) by lia. ring.
    + eexists. split; [left|]. split; [exists 9%nat; split; [lia|]; cbn; intros [= E]; lra|]. intros i Hi. rewrite !weighted_ten. cbn [fst snd Nat.eqb]. unfold action_matrix.
      split; [|ring]. do 10 (destruct i as [|i]; [cbn [nth Nat.eqb Nat.add]; repeat match goal with |- context [M ?r ?c] => rewrite (Rd r c _ ltac:(lia) ltac:(lia) eq_refl) end; unfold G_five, row_q, at_q; cbn [nth Qnum Qden]; lra|]). lia.
Qed.
