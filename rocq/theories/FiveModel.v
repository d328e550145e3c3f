(** Model of /repo/opensfm/src/geometry/essential.h:75-160 and src/essential.cc:3-156 (essential matrices from five points), in exact arithmetic. The
    basis of the null space (a singular value decomposition in the code) and the eigenvectors are parameters. *)
From stdpp Require Import prelude.
From Coq Require Import Reals.
From Verif Require Import Base Lin EssModel.
Local Open Scope R_scope.

(** essential.h:40-61: a polynomial is its coefficients of
    xxx xxy xyy yyy xxz xyz yyz xzz yzz zzz xx xy yy xz yz zz x y z 1, numbered from 0; a matrix is its rows *)
Definition poly := nat -> R.
Definition matrix := nat -> poly.
Definition coefficients (l : list R) : poly := fun n => nth n l 0.
Definition padd (a b : poly) : poly := fun n => a n + b n.
Definition psub (a b : poly) : poly := fun n => a n - b n.
Notation coef_xx := 10%nat (only parsing). Notation coef_xy := 11%nat (only parsing). Notation coef_yy := 12%nat (only parsing). Notation coef_xz := 13%nat (only parsing).
Notation coef_yz := 14%nat (only parsing). Notation coef_zz := 15%nat (only parsing). Notation coef_x := 16%nat (only parsing). Notation coef_y := 17%nat (only parsing).
Notation coef_z := 18%nat (only parsing). Notation coef_1 := 19%nat (only parsing).
(** essential.cc:4-21; the results are listed in the order of the numbering, not of the assignments *)
Definition o1 (a b : poly) : poly := coefficients
  [0; 0; 0; 0; 0; 0; 0; 0; 0; 0;
   a coef_x * b coef_x; a coef_x * b coef_y + a coef_y * b coef_x; a coef_y * b coef_y; a coef_x * b coef_z + a coef_z * b coef_x; a coef_y * b coef_z + a coef_z * b coef_y; a coef_z * b coef_z;
   a coef_x * b coef_1 + a coef_1 * b coef_x; a coef_y * b coef_1 + a coef_1 * b coef_y; a coef_z * b coef_1 + a coef_1 * b coef_z; a coef_1 * b coef_1].
(** 24-56 *)
Definition o2 (a b : poly) : poly := coefficients
  [a coef_xx * b coef_x;
   a coef_xx * b coef_y + a coef_xy * b coef_x;
   a coef_xy * b coef_y + a coef_yy * b coef_x;
   a coef_yy * b coef_y;
   a coef_xx * b coef_z + a coef_xz * b coef_x;
   a coef_xy * b coef_z + a coef_yz * b coef_x + a coef_xz * b coef_y;
   a coef_yy * b coef_z + a coef_yz * b coef_y;
   a coef_xz * b coef_z + a coef_zz * b coef_x;
   a coef_yz * b coef_z + a coef_zz * b coef_y;
   a coef_zz * b coef_z;
   a coef_xx * b coef_1 + a coef_x * b coef_x;
   a coef_xy * b coef_1 + a coef_x * b coef_y + a coef_y * b coef_x;
   a coef_yy * b coef_1 + a coef_y * b coef_y;
   a coef_xz * b coef_1 + a coef_x * b coef_z + a coef_z * b coef_x;
   a coef_yz * b coef_1 + a coef_y * b coef_z + a coef_z * b coef_y;
   a coef_zz * b coef_1 + a coef_z * b coef_z;
   a coef_x * b coef_1 + a coef_1 * b coef_x;
   a coef_y * b coef_1 + a coef_1 * b coef_y;
   a coef_z * b coef_1 + a coef_1 * b coef_z;
   a coef_1 * b coef_1].
(** A column of nine numbers; the entry (i, j) is the number 3 i + j *)
Definition entries (m : mat) : list R := [m11 m; m12 m; m13 m; m21 m; m22 m; m23 m; m31 m; m32 m; m33 m].
Definition entry (m : mat) (i j : nat) : R := nth (3 * i + j) (entries m) 0.
(** 59-116. [basis]: the four columns of E_basis *)
Definition basis_of := (mat * mat * mat * mat)%type.
Definition E_poly (basis : basis_of) (i j : nat) : poly :=
  let '(b0, b1, b2, b3) := basis in coefficients [0; 0; 0; 0; 0; 0; 0; 0; 0; 0; 0; 0; 0; 0; 0; 0; entry b0 i j; entry b1 i j; entry b2 i j; entry b3 i j].
Definition EET_poly (E : nat -> nat -> poly) (i j : nat) : poly :=
  let upper i j := padd (padd (o1 (E i 0%nat) (E j 0%nat)) (o1 (E i 1%nat) (E j 1%nat))) (o1 (E i 2%nat) (E j 2%nat)) in
  if (i <=? j)%nat then upper i j else upper j i.
Definition L_poly (E : nat -> nat -> poly) (i j : nat) : poly :=
  let EET := EET_poly E in
  let trace : poly := fun n => / 2 * padd (padd (EET 0%nat 0%nat) (EET 1%nat 1%nat)) (EET 2%nat 2%nat) n in
  if (i =? j)%nat then psub (EET i j) trace else EET i j.
Definition determinant_poly (E : nat -> nat -> poly) : poly :=
  padd (padd (o2 (psub (o1 (E 0 1)%nat (E 1 2)%nat) (o1 (E 0 2)%nat (E 1 1)%nat)) (E 2 0)%nat)
             (o2 (psub (o1 (E 0 2)%nat (E 1 0)%nat) (o1 (E 0 0)%nat (E 1 2)%nat)) (E 2 1)%nat))
       (o2 (psub (o1 (E 0 0)%nat (E 1 1)%nat) (o1 (E 0 1)%nat (E 1 0)%nat)) (E 2 2)%nat).
Definition LE_poly (E : nat -> nat -> poly) (i j : nat) : poly :=
  padd (padd (o2 (L_poly E i 0%nat) (E 0%nat j)) (o2 (L_poly E i 1%nat) (E 1%nat j))) (o2 (L_poly E i 2%nat) (E 2%nat j)).
Definition FivePointsPolynomialConstraints (basis : basis_of) : matrix :=
  let E := E_poly basis in
  fun mrow => nth mrow (determinant_poly E :: (i ← seq 0 3; j ← seq 0 3; [LE_poly E i j])) (fun _ => 0).
(** 119-147 *)
Definition set_row (M : matrix) (i : nat) (row : poly) : matrix := fun k => if (k =? i)%nat then row else M k.
Definition eliminate_below (i : nat) (M : matrix) (j : nat) : matrix :=
  let elem := M j i in if Req_EM_T elem 0 then M else set_row M j (fun k => M j k / elem - M i k).
Definition eliminate (M : option matrix) (i : nat) : option matrix :=
  match M with
  | None => None
  | Some M =>
      let diagonal := M i i in
      if Req_EM_T diagonal 0 then None
      else Some (foldl (eliminate_below i) (set_row M i (fun k => M i k / diagonal)) (seq (i + 1) (10 - (i + 1))))
  end.
Definition substitute_above (i : nat) (M : matrix) (j : nat) : matrix := set_row M j (fun k => M j k - M j i * M i k).
Definition substitute (M : matrix) (i : nat) : matrix := foldl (substitute_above i) M (seq 0 i).
Definition FivePointsGaussJordan (M : matrix) : option matrix :=
  match foldl eliminate (Some M) (seq 0 10) with
  | None => None
  | Some M => Some (foldl substitute M (rev (seq 0 10)))
  end.
(** essential.h:114-126 *)
Definition action_matrix (M : matrix) : matrix :=
  let B i : poly := fun k => M i (10 + k)%nat in
  let row_of k : poly := fun n => if (n =? k)%nat then 1 else 0 in
  let minus r : poly := fun n => - r n in
  fun i => nth i [minus (B 0%nat); minus (B 1%nat); minus (B 2%nat); minus (B 4%nat); minus (B 5%nat); minus (B 7%nat); row_of 0%nat; row_of 1%nat; row_of 3%nat; row_of 6%nat] (fun _ => 0).
(** Complex numbers, and their quotients where the denominator is not 0 *)
Definition complex := (R * R)%type.
Definition cdiv (a b : complex) : complex :=
  ((a.1 * b.1 + a.2 * b.2) / (b.1 * b.1 + b.2 * b.2), (a.2 * b.1 - a.1 * b.2) / (b.1 * b.1 + b.2 * b.2)).
Definition combination (basis : basis_of) (x y z w : R) : mat :=
  let '(b0, b1, b2, b3) := basis in madd (madd (madd (mscale x b0) (mscale y b1)) (mscale z b2)) (mscale w b3).
(** 128-158 for one eigenvector. An eigenvector whose last entry is 0, or whose matrix is 0, gives entries that are not numbers; their imaginary parts
    differ from 0 *)
Definition candidate (basis : basis_of) (V : nat -> complex) : list mat :=
  if Req_EM_T ((V 9%nat).1 * (V 9%nat).1 + (V 9%nat).2 * (V 9%nat).2) 0 then []
  else
    let x := cdiv (V 6%nat) (V 9%nat) in let y := cdiv (V 7%nat) (V 9%nat) in let z := cdiv (V 8%nat) (V 9%nat) in
    let re := combination basis x.1 y.1 z.1 1 in let im := combination basis x.2 y.2 z.2 0 in
    let norm := sqrt (foldr Rplus 0 ((fun x => x * x) <$> entries re ++ entries im)) in
    if Req_EM_T norm 0 then []
    else if forallb (fun x => if Req_EM_T (x / norm) 0 then true else false) (entries im) then [mscale (/ norm) re] else [].
(** 75-83, 100-160. More than nine samples are written outside the matrix of the equations: None *)
Definition EssentialFivePoints (null_space : list mat -> basis_of) (eigenvectors : matrix -> list (nat -> complex)) (samples : list (vec * vec)) : option (list mat) :=
  if (9 <? length samples)%nat then None
  else
    let E_basis := null_space (epipolar_row <$> samples) in
    match FivePointsGaussJordan (FivePointsPolynomialConstraints E_basis) with
    | None => Some []
    | Some M => Some (eigenvectors (action_matrix M) ≫= candidate E_basis)
    end.
(** essential.cc:150-163 *)
Definition essential_five_points (null_space : list mat -> basis_of) (eigenvectors : matrix -> list (nat -> complex)) (x1 x2 : list vec) : res (option (list mat)) :=
  if (length x1 =? length x2)%nat then Ok (EssentialFivePoints null_space eigenvectors (zip x1 x2)) else Err RuntimeError.
