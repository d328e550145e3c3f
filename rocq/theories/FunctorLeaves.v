From stdpp Require Import prelude.
From Coq Require Import Reals Lra.
From Coquelicot Require Import Coquelicot.
From Verif Require Import Base GeoModel GeoProofs FunctorModel FunctorSpec FunctorProofs.
Local Open Scope R_scope.


Lemma moving_cons f xs t dxs : moving (f :: xs) t dxs -> exists (d : R) dxs', is_derive f t d /\ moving xs t dxs' /\ dxs = d :: dxs'.
Proof. intros H. apply Forall2_cons_inv_l in H as (d & l & H1 & H2 & ->). now exists d, l. Qed.
Lemma moving_nil t dxs : moving [] t dxs -> dxs = [].
Proof. apply Forall2_nil_inv_l. Qed.
Lemma zeros_cons (a : R) l : List.Forall (eq 0) (a :: l) -> 0 = a /\ List.Forall (eq 0) l.
Proof. apply Forall_cons_1. Qed.
Ltac components :=
  repeat match goal with
  | H : length ?l = 0%nat |- _ => destruct l; [clear H|discriminate H]
  | H : length ?l = S _ |- _ => destruct l; [discriminate H|cbn [length] in H; apply (f_equal Nat.pred) in H; cbn [Nat.pred] in H]
  | H : (S _ <= length ?l)%nat |- _ => destruct l; [cbn in H; exfalso; lia|cbn [length] in H; apply le_S_n in H]
  | H : (0 <= length ?l)%nat |- _ => clear H
  | H : moving (_ :: _) _ _ |- _ => apply moving_cons in H as (? & ? & ? & H & ->)
  | H : moving [] _ _ |- _ => apply moving_nil in H; subst
  end.
Ltac start := split;
  [ reflexivity
  | match goal with d : bool |- _ => destruct d; reflexivity | _ => reflexivity end
  | let xs := fresh "xs" in let ps := fresh "ps" in let t := fresh "t" in let dxs := fresh "dxs" in let dps := fresh "dps" in
    let Hl := fresh "Hl" in let Hlp := fresh "Hlp" in let Hx := fresh "Hx" in let Hp := fresh "Hp" in let Hm := fresh "Hm" in let Hmp := fresh "Hmp" in
    let Hd := fresh "Hd" in let j := fresh "j" in let Hj := fresh "Hj" in
    intros xs ps t dxs dps Hl Hlp Hx Hp Hm Hmp Hd j Hj; cbn in Hl, Hlp, Hj; components;
    match goal with d : bool |- _ => destruct d; [clear Hd|specialize (Hd eq_refl); repeat (apply zeros_cons in Hd as [<- Hd])] end ].
Ltac evalf := cbv [sum_n foldr map seq Stride ParamSize InSize OutSize Forward ForwardDerivatives nth app at_time Nat.add Nat.mul fst snd] in *.
(** a derivative computed by auto_derive *)
Ltac known := repeat match goal with H : is_derive ?f ?t ?d |- context [Derive (fun x => ?f x) ?t] => change (Derive (fun x => f x) t) with (Derive f t) end;
  repeat match goal with H : is_derive ?f ?t ?d |- context [Derive ?f ?t] => rewrite (is_derive_unique f t d H) end.
Ltac exd := repeat split; try match goal with H : is_derive ?f ?t ?d |- ex_derive (fun x => ?f x) ?t => exists d; exact H | H : is_derive ?f ?t ?d |- ex_derive ?f ?t => exists d; exact H end.
Ltac derives := eapply (eq_rect _ (is_derive _ _)); [auto_derive; [exd|reflexivity]|match goal with |- ?a = ?b => change (@eq R a b) end; known].
Lemma good_Affine d x p : good Affine d x p.
Proof.
  start; subst; (destruct j as [|[|j]]; [| |lia]); unfold Affine, Affine_Forward; evalf; derives; ring.
Qed.
Lemma good_UniformScale d x p : good UniformScale d x p.
Proof.
  start; subst; (destruct j as [|[|j]]; [| |lia]); unfold UniformScale, UniformScale_Forward; evalf; derives; ring.
Qed.
Lemma good_Identity d x p : good Identity d x p.
Proof.
  start; subst; (destruct j as [|[|j]]; [| |lia]); unfold Identity, Identity_Forward; evalf; derives; ring.
Qed.
Lemma good_Disto2 d x p : good Disto2 d x p.
Proof.
  start; subst; (destruct j as [|[|j]]; [| |lia]); unfold Disto2, Disto2_Forward, Disto2_Distortion, SquaredNorm; evalf; derives; ring.
Qed.
Lemma good_Disto24 d x p : good Disto24 d x p.
Proof.
  start; subst; (destruct j as [|[|j]]; [| |lia]); unfold Disto24, Disto24_Forward, Disto24_Distortion, SquaredNorm; evalf; derives; ring.
Qed.
Lemma good_Disto2468 d x p : good Disto2468 d x p.
Proof.
  start; subst; (destruct j as [|[|j]]; [| |lia]); unfold Disto2468, Disto2468_Forward, Disto2468_Distortion, SquaredNorm; evalf; derives; ring.
Qed.
Lemma good_Disto62 d x p : good Disto62 d x p.
Proof.
  start; subst; (destruct j as [|[|j]]; [| |lia]);
    unfold Disto62, Disto62_jacobian, Disto62_Forward, TangentialDistortion, Disto62_RadialDistortion, SquaredNorm; evalf; derives; ring.
Qed.
Lemma good_Disto624 d x p : good Disto624 d x p.
Proof.
  start; subst; (destruct j as [|[|j]]; [| |lia]);
    unfold Disto624, Disto624_jacobian, Disto624_Forward, ThinPrismDistortion, TangentialDistortion, Disto62_RadialDistortion, SquaredNorm; evalf; derives; ring.
Qed.
Lemma good_DistoBrown d x p : good DistoBrown d x p.
Proof.
  start; subst; (destruct j as [|[|j]]; [| |lia]);
    unfold DistoBrown, DistoBrown_jacobian, DistoBrown_Forward, TangentialDistortion, Brown_RadialDistortion, SquaredNorm; evalf; derives; ring.
Qed.
