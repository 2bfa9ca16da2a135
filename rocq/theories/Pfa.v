(** Model of the prime-factor complex Fourier transform pfacc of FFTlib/pfafft.c.

    Numbers are the real numbers of the standard library: rounding is not modelled.  The array z of REAL
    pairs is a function from the complex index to pairs: an offset j of the code is twice the index here
    and z[j], z[j+1] are its two components.  The constants and the modules for the factors are
    transcribed statement by statement from the source; a module takes the values of its cells before
    the statements of the loop and gives their values after them. *)
From Coq Require Import ZArith Reals List Lia.
From Verif Require Import FdKernels Marchenko KissFft.
Import ListNotations.
Local Open Scope Z_scope.

(** pfaconst.h:5-45: the constants *)
Definition P120 : R := (sin (1 * PI / 26))%R.
Definition P142 : R := (sin (1 * PI / 22))%R.
Definition P173 : R := (sin (1 * PI / 18))%R.
Definition P222 : R := (sin (1 * PI / 14))%R.
Definition P239 : R := (sin (1 * PI / 13))%R.
Definition P281 : R := (sin (1 * PI / 11))%R.
Definition P342 : R := (sin (1 * PI / 9))%R.
Definition P354 : R := (sin (3 * PI / 26))%R.
Definition P382 : R := (sin (1 * PI / 8))%R.
Definition P415 : R := (sin (3 * PI / 22))%R.
Definition P433 : R := (sin (1 * PI / 7))%R.
Definition P464 : R := (sin (2 * PI / 13))%R.
Definition P540 : R := (sin (2 * PI / 11))%R.
Definition P559 : R := ((1 / 4 + sin (1 * PI / 10)))%R.
Definition P568 : R := (sin (5 * PI / 26))%R.
Definition P587 : R := (sin (1 * PI / 5))%R.
Definition P623 : R := (sin (3 * PI / 14))%R.
Definition P642 : R := (sin (2 * PI / 9))%R.
Definition P654 : R := (sin (5 * PI / 22))%R.
Definition P663 : R := (sin (3 * PI / 13))%R.
Definition P707 : R := (sin (1 * PI / 4))%R.
Definition P748 : R := (sin (7 * PI / 26))%R.
Definition P755 : R := (sin (3 * PI / 11))%R.
Definition P766 : R := (sin (5 * PI / 18))%R.
Definition P781 : R := (sin (2 * PI / 7))%R.
Definition P822 : R := (sin (4 * PI / 13))%R.
Definition P841 : R := (sin (7 * PI / 22))%R.
Definition P866 : R := (sin (1 * PI / 3))%R.
Definition P885 : R := (sin (9 * PI / 26))%R.
Definition P900 : R := (sin (5 * PI / 14))%R.
Definition P909 : R := (sin (4 * PI / 11))%R.
Definition P923 : R := (sin (3 * PI / 8))%R.
Definition P935 : R := (sin (5 * PI / 13))%R.
Definition P939 : R := (sin (7 * PI / 18))%R.
Definition P951 : R := (sin (2 * PI / 5))%R.
Definition P959 : R := (sin (9 * PI / 22))%R.
Definition P970 : R := (sin (11 * PI / 26))%R.
Definition P974 : R := (sin (3 * PI / 7))%R.
Definition P984 : R := (sin (4 * PI / 9))%R.
Definition P989 : R := (sin (5 * PI / 11))%R.
Definition P992 : R := (sin (6 * PI / 13))%R.

(** pfafft.c:103-109: one iteration for factor 2 *)
Definition module2 (mu : Z) (z : Z -> C) : list C :=
  let z0r := fst (z 0) in let z0i := snd (z 0) in
  let z1r := fst (z 1) in let z1i := snd (z 1) in
  let t1r := (z0r - z1r)%R in
  let t1i := (z0i - z1i)%R in
  let z0r := (z0r + z1r)%R in
  let z0i := (z0i + z1i)%R in
  let z1r := (t1r)%R in
  let z1i := (t1i)%R in
  [(z0r, z0i); (z1r, z1i)].
(** pfafft.c:121-124: the coefficients c1 of factor 3 *)
Definition coeffs3 (mu : Z) : R :=
  if mu =? 1 then (P866)%R else
  (-P866)%R.
(** pfafft.c:125-137: one iteration for factor 3 *)
Definition module3 (mu : Z) (z : Z -> C) : list C :=
  let c1 := coeffs3 mu in
  let z0r := fst (z 0) in let z0i := snd (z 0) in
  let z1r := fst (z 1) in let z1i := snd (z 1) in
  let z2r := fst (z 2) in let z2i := snd (z 2) in
  let t1r := (z1r + z2r)%R in
  let t1i := (z1i + z2i)%R in
  let y1r := (z0r - / 2 * t1r)%R in
  let y1i := (z0i - / 2 * t1i)%R in
  let y2r := (c1 * (z1r - z2r))%R in
  let y2i := (c1 * (z1i - z2i))%R in
  let z0r := (z0r + t1r)%R in
  let z0i := (z0i + t1i)%R in
  let z1r := (y1r - y2i)%R in
  let z1i := (y1i + y2r)%R in
  let z2r := (y1r + y2i)%R in
  let z2i := (y1i - y2r)%R in
  [(z0r, z0i); (z1r, z1i); (z2r, z2i)].
(** pfafft.c:150-153: the coefficients c1 of factor 4 *)
Definition coeffs4 (mu : Z) : R :=
  if mu =? 1 then (1)%R else
  (-1)%R.
(** pfafft.c:154-170: one iteration for factor 4 *)
Definition module4 (mu : Z) (z : Z -> C) : list C :=
  let c1 := coeffs4 mu in
  let z0r := fst (z 0) in let z0i := snd (z 0) in
  let z1r := fst (z 1) in let z1i := snd (z 1) in
  let z2r := fst (z 2) in let z2i := snd (z 2) in
  let z3r := fst (z 3) in let z3i := snd (z 3) in
  let t1r := (z0r + z2r)%R in
  let t1i := (z0i + z2i)%R in
  let t2r := (z1r + z3r)%R in
  let t2i := (z1i + z3i)%R in
  let y1r := (z0r - z2r)%R in
  let y1i := (z0i - z2i)%R in
  let y3r := (c1 * (z1r - z3r))%R in
  let y3i := (c1 * (z1i - z3i))%R in
  let z0r := (t1r + t2r)%R in
  let z0i := (t1i + t2i)%R in
  let z1r := (y1r - y3i)%R in
  let z1i := (y1i + y3r)%R in
  let z2r := (t1r - t2r)%R in
  let z2i := (t1i - t2i)%R in
  let z3r := (y1r + y3i)%R in
  let z3i := (y1i - y3r)%R in
  [(z0r, z0i); (z1r, z1i); (z2r, z2i); (z3r, z3i)].
(** pfafft.c:184-200: the coefficients c1, c2, c3 of factor 5 *)
Definition coeffs5 (mu : Z) : R * R * R :=
  if mu =? 1 then (P559, P951, P587)%R else
  if mu =? 2 then (-P559, P587, -P951)%R else
  if mu =? 3 then (-P559, -P587, P951)%R else
  (P559, -P951, -P587)%R.
(** pfafft.c:201-233: one iteration for factor 5 *)
Definition module5 (mu : Z) (z : Z -> C) : list C :=
  let '(c1, c2, c3) := coeffs5 mu in
  let z0r := fst (z 0) in let z0i := snd (z 0) in
  let z1r := fst (z 1) in let z1i := snd (z 1) in
  let z2r := fst (z 2) in let z2i := snd (z 2) in
  let z3r := fst (z 3) in let z3i := snd (z 3) in
  let z4r := fst (z 4) in let z4i := snd (z 4) in
  let t1r := (z1r + z4r)%R in
  let t1i := (z1i + z4i)%R in
  let t2r := (z2r + z3r)%R in
  let t2i := (z2i + z3i)%R in
  let t3r := (z1r - z4r)%R in
  let t3i := (z1i - z4i)%R in
  let t4r := (z2r - z3r)%R in
  let t4i := (z2i - z3i)%R in
  let t5r := (t1r + t2r)%R in
  let t5i := (t1i + t2i)%R in
  let t6r := (c1 * (t1r - t2r))%R in
  let t6i := (c1 * (t1i - t2i))%R in
  let t7r := (z0r - / 4 * t5r)%R in
  let t7i := (z0i - / 4 * t5i)%R in
  let y1r := (t7r + t6r)%R in
  let y1i := (t7i + t6i)%R in
  let y2r := (t7r - t6r)%R in
  let y2i := (t7i - t6i)%R in
  let y3r := (c3 * t3r - c2 * t4r)%R in
  let y3i := (c3 * t3i - c2 * t4i)%R in
  let y4r := (c2 * t3r + c3 * t4r)%R in
  let y4i := (c2 * t3i + c3 * t4i)%R in
  let z0r := (z0r + t5r)%R in
  let z0i := (z0i + t5i)%R in
  let z1r := (y1r - y4i)%R in
  let z1i := (y1i + y4r)%R in
  let z2r := (y2r - y3i)%R in
  let z2i := (y2i + y3r)%R in
  let z3r := (y2r + y3i)%R in
  let z3i := (y2i - y3r)%R in
  let z4r := (y1r + y4i)%R in
  let z4i := (y1i - y4r)%R in
  [(z0r, z0i); (z1r, z1i); (z2r, z2i); (z3r, z3i); (z4r, z4i)].
(** pfafft.c:250-292: the coefficients c1, c2, c3, c4, c5, c6 of factor 7 *)
Definition coeffs7 (mu : Z) : R * R * R * R * R * R :=
  if mu =? 1 then (P623, -P222, -P900, P781, P974, P433)%R else
  if mu =? 2 then (-P222, -P900, P623, P974, -P433, -P781)%R else
  if mu =? 3 then (-P900, P623, -P222, P433, -P781, P974)%R else
  if mu =? 4 then (-P900, P623, -P222, -P433, P781, -P974)%R else
  if mu =? 5 then (-P222, -P900, P623, -P974, P433, P781)%R else
  (P623, -P222, -P900, -P781, -P974, -P433)%R.
(** pfafft.c:293-337: one iteration for factor 7 *)
Definition module7 (mu : Z) (z : Z -> C) : list C :=
  let '(c1, c2, c3, c4, c5, c6) := coeffs7 mu in
  let z0r := fst (z 0) in let z0i := snd (z 0) in
  let z1r := fst (z 1) in let z1i := snd (z 1) in
  let z2r := fst (z 2) in let z2i := snd (z 2) in
  let z3r := fst (z 3) in let z3i := snd (z 3) in
  let z4r := fst (z 4) in let z4i := snd (z 4) in
  let z5r := fst (z 5) in let z5i := snd (z 5) in
  let z6r := fst (z 6) in let z6i := snd (z 6) in
  let t1r := (z1r + z6r)%R in
  let t1i := (z1i + z6i)%R in
  let t2r := (z2r + z5r)%R in
  let t2i := (z2i + z5i)%R in
  let t3r := (z3r + z4r)%R in
  let t3i := (z3i + z4i)%R in
  let t4r := (z1r - z6r)%R in
  let t4i := (z1i - z6i)%R in
  let t5r := (z2r - z5r)%R in
  let t5i := (z2i - z5i)%R in
  let t6r := (z3r - z4r)%R in
  let t6i := (z3i - z4i)%R in
  let t7r := (z0r - / 2 * t3r)%R in
  let t7i := (z0i - / 2 * t3i)%R in
  let t8r := (t1r - t3r)%R in
  let t8i := (t1i - t3i)%R in
  let t9r := (t2r - t3r)%R in
  let t9i := (t2i - t3i)%R in
  let y1r := (t7r + c1 * t8r + c2 * t9r)%R in
  let y1i := (t7i + c1 * t8i + c2 * t9i)%R in
  let y2r := (t7r + c2 * t8r + c3 * t9r)%R in
  let y2i := (t7i + c2 * t8i + c3 * t9i)%R in
  let y3r := (t7r + c3 * t8r + c1 * t9r)%R in
  let y3i := (t7i + c3 * t8i + c1 * t9i)%R in
  let y4r := (c6 * t4r - c4 * t5r + c5 * t6r)%R in
  let y4i := (c6 * t4i - c4 * t5i + c5 * t6i)%R in
  let y5r := (c5 * t4r - c6 * t5r - c4 * t6r)%R in
  let y5i := (c5 * t4i - c6 * t5i - c4 * t6i)%R in
  let y6r := (c4 * t4r + c5 * t5r + c6 * t6r)%R in
  let y6i := (c4 * t4i + c5 * t5i + c6 * t6i)%R in
  let z0r := (z0r + t1r + t2r + t3r)%R in
  let z0i := (z0i + t1i + t2i + t3i)%R in
  let z1r := (y1r - y6i)%R in
  let z1i := (y1i + y6r)%R in
  let z2r := (y2r - y5i)%R in
  let z2i := (y2i + y5r)%R in
  let z3r := (y3r - y4i)%R in
  let z3i := (y3i + y4r)%R in
  let z4r := (y3r + y4i)%R in
  let z4i := (y3i - y4r)%R in
  let z5r := (y2r + y5i)%R in
  let z5i := (y2i - y5r)%R in
  let z6r := (y1r + y6i)%R in
  let z6i := (y1i - y6r)%R in
  [(z0r, z0i); (z1r, z1i); (z2r, z2i); (z3r, z3i); (z4r, z4i); (z5r, z5i); (z6r, z6i)].
(** pfafft.c:354-366: the coefficients c1, c2 of factor 8 *)
Definition coeffs8 (mu : Z) : R * R :=
  if mu =? 1 then (1, P707)%R else
  if mu =? 3 then (-1, -P707)%R else
  if mu =? 5 then (1, -P707)%R else
  (-1, P707)%R.
(** pfafft.c:367-420: one iteration for factor 8 *)
Definition module8 (mu : Z) (z : Z -> C) : list C :=
  let '(c1, c2) := coeffs8 mu in
  let c3 := (c1 * c2)%R in
  let z0r := fst (z 0) in let z0i := snd (z 0) in
  let z1r := fst (z 1) in let z1i := snd (z 1) in
  let z2r := fst (z 2) in let z2i := snd (z 2) in
  let z3r := fst (z 3) in let z3i := snd (z 3) in
  let z4r := fst (z 4) in let z4i := snd (z 4) in
  let z5r := fst (z 5) in let z5i := snd (z 5) in
  let z6r := fst (z 6) in let z6i := snd (z 6) in
  let z7r := fst (z 7) in let z7i := snd (z 7) in
  let t1r := (z0r + z4r)%R in
  let t1i := (z0i + z4i)%R in
  let t2r := (z0r - z4r)%R in
  let t2i := (z0i - z4i)%R in
  let t3r := (z1r + z5r)%R in
  let t3i := (z1i + z5i)%R in
  let t4r := (z1r - z5r)%R in
  let t4i := (z1i - z5i)%R in
  let t5r := (z2r + z6r)%R in
  let t5i := (z2i + z6i)%R in
  let t6r := (c1 * (z2r - z6r))%R in
  let t6i := (c1 * (z2i - z6i))%R in
  let t7r := (z3r + z7r)%R in
  let t7i := (z3i + z7i)%R in
  let t8r := (z3r - z7r)%R in
  let t8i := (z3i - z7i)%R in
  let t9r := (t1r + t5r)%R in
  let t9i := (t1i + t5i)%R in
  let t10r := (t3r + t7r)%R in
  let t10i := (t3i + t7i)%R in
  let t11r := (c2 * (t4r - t8r))%R in
  let t11i := (c2 * (t4i - t8i))%R in
  let t12r := (c3 * (t4r + t8r))%R in
  let t12i := (c3 * (t4i + t8i))%R in
  let y1r := (t2r + t11r)%R in
  let y1i := (t2i + t11i)%R in
  let y2r := (t1r - t5r)%R in
  let y2i := (t1i - t5i)%R in
  let y3r := (t2r - t11r)%R in
  let y3i := (t2i - t11i)%R in
  let y5r := (t12r - t6r)%R in
  let y5i := (t12i - t6i)%R in
  let y6r := (c1 * (t3r - t7r))%R in
  let y6i := (c1 * (t3i - t7i))%R in
  let y7r := (t12r + t6r)%R in
  let y7i := (t12i + t6i)%R in
  let z0r := (t9r + t10r)%R in
  let z0i := (t9i + t10i)%R in
  let z1r := (y1r - y7i)%R in
  let z1i := (y1i + y7r)%R in
  let z2r := (y2r - y6i)%R in
  let z2i := (y2i + y6r)%R in
  let z3r := (y3r - y5i)%R in
  let z3i := (y3i + y5r)%R in
  let z4r := (t9r - t10r)%R in
  let z4i := (t9i - t10i)%R in
  let z5r := (y3r + y5i)%R in
  let z5i := (y3i - y5r)%R in
  let z6r := (y2r + y6i)%R in
  let z6i := (y2i - y6r)%R in
  let z7r := (y1r + y7i)%R in
  let z7i := (y1i - y7r)%R in
  [(z0r, z0i); (z1r, z1i); (z2r, z2i); (z3r, z3i); (z4r, z4i); (z5r, z5i); (z6r, z6i); (z7r, z7i)].
(** pfafft.c:438-474: the coefficients c1, c2, c3, c4, c5 of factor 9 *)
Definition coeffs9 (mu : Z) : R * R * R * R * R :=
  if mu =? 1 then (P866, P766, P642, P173, P984)%R else
  if mu =? 2 then (-P866, P173, P984, -P939, P342)%R else
  if mu =? 4 then (P866, -P939, P342, P766, -P642)%R else
  if mu =? 5 then (-P866, -P939, -P342, P766, P642)%R else
  if mu =? 7 then (P866, P173, -P984, -P939, -P342)%R else
  (-P866, P766, -P642, P173, -P984)%R.
(** pfafft.c:475-559: one iteration for factor 9 *)
Definition module9 (mu : Z) (z : Z -> C) : list C :=
  let '(c1, c2, c3, c4, c5) := coeffs9 mu in
  let c6 := (c1 * c2)%R in
  let c7 := (c1 * c3)%R in
  let c8 := (c1 * c4)%R in
  let c9 := (c1 * c5)%R in
  let z0r := fst (z 0) in let z0i := snd (z 0) in
  let z1r := fst (z 1) in let z1i := snd (z 1) in
  let z2r := fst (z 2) in let z2i := snd (z 2) in
  let z3r := fst (z 3) in let z3i := snd (z 3) in
  let z4r := fst (z 4) in let z4i := snd (z 4) in
  let z5r := fst (z 5) in let z5i := snd (z 5) in
  let z6r := fst (z 6) in let z6i := snd (z 6) in
  let z7r := fst (z 7) in let z7i := snd (z 7) in
  let z8r := fst (z 8) in let z8i := snd (z 8) in
  let t1r := (z3r + z6r)%R in
  let t1i := (z3i + z6i)%R in
  let t2r := (z0r - / 2 * t1r)%R in
  let t2i := (z0i - / 2 * t1i)%R in
  let t3r := (c1 * (z3r - z6r))%R in
  let t3i := (c1 * (z3i - z6i))%R in
  let t4r := (z0r + t1r)%R in
  let t4i := (z0i + t1i)%R in
  let t5r := (z4r + z7r)%R in
  let t5i := (z4i + z7i)%R in
  let t6r := (z1r - / 2 * t5r)%R in
  let t6i := (z1i - / 2 * t5i)%R in
  let t7r := (z4r - z7r)%R in
  let t7i := (z4i - z7i)%R in
  let t8r := (z1r + t5r)%R in
  let t8i := (z1i + t5i)%R in
  let t9r := (z2r + z5r)%R in
  let t9i := (z2i + z5i)%R in
  let t10r := (z8r - / 2 * t9r)%R in
  let t10i := (z8i - / 2 * t9i)%R in
  let t11r := (z2r - z5r)%R in
  let t11i := (z2i - z5i)%R in
  let t12r := (z8r + t9r)%R in
  let t12i := (z8i + t9i)%R in
  let t13r := (t8r + t12r)%R in
  let t13i := (t8i + t12i)%R in
  let t14r := (t6r + t10r)%R in
  let t14i := (t6i + t10i)%R in
  let t15r := (t6r - t10r)%R in
  let t15i := (t6i - t10i)%R in
  let t16r := (t7r + t11r)%R in
  let t16i := (t7i + t11i)%R in
  let t17r := (t7r - t11r)%R in
  let t17i := (t7i - t11i)%R in
  let t18r := (c2 * t14r - c7 * t17r)%R in
  let t18i := (c2 * t14i - c7 * t17i)%R in
  let t19r := (c4 * t14r + c9 * t17r)%R in
  let t19i := (c4 * t14i + c9 * t17i)%R in
  let t20r := (c3 * t15r + c6 * t16r)%R in
  let t20i := (c3 * t15i + c6 * t16i)%R in
  let t21r := (c5 * t15r - c8 * t16r)%R in
  let t21i := (c5 * t15i - c8 * t16i)%R in
  let t22r := (t18r + t19r)%R in
  let t22i := (t18i + t19i)%R in
  let t23r := (t20r - t21r)%R in
  let t23i := (t20i - t21i)%R in
  let y1r := (t2r + t18r)%R in
  let y1i := (t2i + t18i)%R in
  let y2r := (t2r + t19r)%R in
  let y2i := (t2i + t19i)%R in
  let y3r := (t4r - / 2 * t13r)%R in
  let y3i := (t4i - / 2 * t13i)%R in
  let y4r := (t2r - t22r)%R in
  let y4i := (t2i - t22i)%R in
  let y5r := (t3r - t23r)%R in
  let y5i := (t3i - t23i)%R in
  let y6r := (c1 * (t8r - t12r))%R in
  let y6i := (c1 * (t8i - t12i))%R in
  let y7r := (t21r - t3r)%R in
  let y7i := (t21i - t3i)%R in
  let y8r := (t3r + t20r)%R in
  let y8i := (t3i + t20i)%R in
  let z0r := (t4r + t13r)%R in
  let z0i := (t4i + t13i)%R in
  let z1r := (y1r - y8i)%R in
  let z1i := (y1i + y8r)%R in
  let z2r := (y2r - y7i)%R in
  let z2i := (y2i + y7r)%R in
  let z3r := (y3r - y6i)%R in
  let z3i := (y3i + y6r)%R in
  let z4r := (y4r - y5i)%R in
  let z4i := (y4i + y5r)%R in
  let z5r := (y4r + y5i)%R in
  let z5i := (y4i - y5r)%R in
  let z6r := (y3r + y6i)%R in
  let z6i := (y3i - y6r)%R in
  let z7r := (y2r + y7i)%R in
  let z7i := (y2i - y7r)%R in
  let z8r := (y1r + y8i)%R in
  let z8i := (y1i - y8r)%R in
  [(z0r, z0i); (z1r, z1i); (z2r, z2i); (z3r, z3i); (z4r, z4i); (z5r, z5i); (z6r, z6i); (z7r, z7i); (z8r, z8i)].
(** pfafft.c:580-690: the coefficients c1, c2, c3, c4, c5, c6, c7, c8, c9, c10 of factor 11 *)
Definition coeffs11 (mu : Z) : R * R * R * R * R * R * R * R * R * R :=
  if mu =? 1 then (P841, P415, -P142, -P654, -P959, P540, P909, P989, P755, P281)%R else
  if mu =? 2 then (P415, -P654, -P959, -P142, P841, P909, P755, -P281, -P989, -P540)%R else
  if mu =? 3 then (-P142, -P959, P415, P841, -P654, P989, -P281, -P909, P540, P755)%R else
  if mu =? 4 then (-P654, -P142, P841, -P959, P415, P755, -P989, P540, P281, -P909)%R else
  if mu =? 5 then (-P959, P841, -P654, P415, -P142, P281, -P540, P755, -P909, P989)%R else
  if mu =? 6 then (-P959, P841, -P654, P415, -P142, -P281, P540, -P755, P909, -P989)%R else
  if mu =? 7 then (-P654, -P142, P841, -P959, P415, -P755, P989, -P540, -P281, P909)%R else
  if mu =? 8 then (-P142, -P959, P415, P841, -P654, -P989, P281, P909, -P540, -P755)%R else
  if mu =? 9 then (P415, -P654, -P959, -P142, P841, -P909, -P755, P281, P989, P540)%R else
  (P841, P415, -P142, -P654, -P959, -P540, -P909, -P989, -P755, -P281)%R.
(** pfafft.c:691-763: one iteration for factor 11 *)
Definition module11 (mu : Z) (z : Z -> C) : list C :=
  let '(c1, c2, c3, c4, c5, c6, c7, c8, c9, c10) := coeffs11 mu in
  let z0r := fst (z 0) in let z0i := snd (z 0) in
  let z1r := fst (z 1) in let z1i := snd (z 1) in
  let z2r := fst (z 2) in let z2i := snd (z 2) in
  let z3r := fst (z 3) in let z3i := snd (z 3) in
  let z4r := fst (z 4) in let z4i := snd (z 4) in
  let z5r := fst (z 5) in let z5i := snd (z 5) in
  let z6r := fst (z 6) in let z6i := snd (z 6) in
  let z7r := fst (z 7) in let z7i := snd (z 7) in
  let z8r := fst (z 8) in let z8i := snd (z 8) in
  let z9r := fst (z 9) in let z9i := snd (z 9) in
  let z10r := fst (z 10) in let z10i := snd (z 10) in
  let t1r := (z1r + z10r)%R in
  let t1i := (z1i + z10i)%R in
  let t2r := (z2r + z9r)%R in
  let t2i := (z2i + z9i)%R in
  let t3r := (z3r + z8r)%R in
  let t3i := (z3i + z8i)%R in
  let t4r := (z4r + z7r)%R in
  let t4i := (z4i + z7i)%R in
  let t5r := (z5r + z6r)%R in
  let t5i := (z5i + z6i)%R in
  let t6r := (z1r - z10r)%R in
  let t6i := (z1i - z10i)%R in
  let t7r := (z2r - z9r)%R in
  let t7i := (z2i - z9i)%R in
  let t8r := (z3r - z8r)%R in
  let t8i := (z3i - z8i)%R in
  let t9r := (z4r - z7r)%R in
  let t9i := (z4i - z7i)%R in
  let t10r := (z5r - z6r)%R in
  let t10i := (z5i - z6i)%R in
  let t11r := (z0r - / 2 * t5r)%R in
  let t11i := (z0i - / 2 * t5i)%R in
  let t12r := (t1r - t5r)%R in
  let t12i := (t1i - t5i)%R in
  let t13r := (t2r - t5r)%R in
  let t13i := (t2i - t5i)%R in
  let t14r := (t3r - t5r)%R in
  let t14i := (t3i - t5i)%R in
  let t15r := (t4r - t5r)%R in
  let t15i := (t4i - t5i)%R in
  let y1r := (t11r + c1 * t12r + c2 * t13r + c3 * t14r + c4 * t15r)%R in
  let y1i := (t11i + c1 * t12i + c2 * t13i + c3 * t14i + c4 * t15i)%R in
  let y2r := (t11r + c2 * t12r + c4 * t13r + c5 * t14r + c3 * t15r)%R in
  let y2i := (t11i + c2 * t12i + c4 * t13i + c5 * t14i + c3 * t15i)%R in
  let y3r := (t11r + c3 * t12r + c5 * t13r + c2 * t14r + c1 * t15r)%R in
  let y3i := (t11i + c3 * t12i + c5 * t13i + c2 * t14i + c1 * t15i)%R in
  let y4r := (t11r + c4 * t12r + c3 * t13r + c1 * t14r + c5 * t15r)%R in
  let y4i := (t11i + c4 * t12i + c3 * t13i + c1 * t14i + c5 * t15i)%R in
  let y5r := (t11r + c5 * t12r + c1 * t13r + c4 * t14r + c2 * t15r)%R in
  let y5i := (t11i + c5 * t12i + c1 * t13i + c4 * t14i + c2 * t15i)%R in
  let y6r := (c10 * t6r - c6 * t7r + c9 * t8r - c7 * t9r + c8 * t10r)%R in
  let y6i := (c10 * t6i - c6 * t7i + c9 * t8i - c7 * t9i + c8 * t10i)%R in
  let y7r := (c9 * t6r - c8 * t7r + c6 * t8r + c10 * t9r - c7 * t10r)%R in
  let y7i := (c9 * t6i - c8 * t7i + c6 * t8i + c10 * t9i - c7 * t10i)%R in
  let y8r := (c8 * t6r - c10 * t7r - c7 * t8r + c6 * t9r + c9 * t10r)%R in
  let y8i := (c8 * t6i - c10 * t7i - c7 * t8i + c6 * t9i + c9 * t10i)%R in
  let y9r := (c7 * t6r + c9 * t7r - c10 * t8r - c8 * t9r - c6 * t10r)%R in
  let y9i := (c7 * t6i + c9 * t7i - c10 * t8i - c8 * t9i - c6 * t10i)%R in
  let y10r := (c6 * t6r + c7 * t7r + c8 * t8r + c9 * t9r + c10 * t10r)%R in
  let y10i := (c6 * t6i + c7 * t7i + c8 * t8i + c9 * t9i + c10 * t10i)%R in
  let z0r := (z0r + t1r + t2r + t3r + t4r + t5r)%R in
  let z0i := (z0i + t1i + t2i + t3i + t4i + t5i)%R in
  let z1r := (y1r - y10i)%R in
  let z1i := (y1i + y10r)%R in
  let z2r := (y2r - y9i)%R in
  let z2i := (y2i + y9r)%R in
  let z3r := (y3r - y8i)%R in
  let z3i := (y3i + y8r)%R in
  let z4r := (y4r - y7i)%R in
  let z4i := (y4i + y7r)%R in
  let z5r := (y5r - y6i)%R in
  let z5i := (y5i + y6r)%R in
  let z6r := (y5r + y6i)%R in
  let z6i := (y5i - y6r)%R in
  let z7r := (y4r + y7i)%R in
  let z7i := (y4i - y7r)%R in
  let z8r := (y3r + y8i)%R in
  let z8i := (y3i - y8r)%R in
  let z9r := (y2r + y9i)%R in
  let z9i := (y2i - y9r)%R in
  let z10r := (y1r + y10i)%R in
  let z10i := (y1i - y10r)%R in
  [(z0r, z0i); (z1r, z1i); (z2r, z2i); (z3r, z3i); (z4r, z4i); (z5r, z5i); (z6r, z6i); (z7r, z7i); (z8r, z8i); (z9r, z9i); (z10r, z10i)].
(** pfafft.c:786-942: the coefficients c1, c2, c3, c4, c5, c6, c7, c8, c9, c10, c11, c12 of factor 13 *)
Definition coeffs13 (mu : Z) : R * R * R * R * R * R * R * R * R * R * R * R :=
  if mu =? 1 then (P885, P568, P120, -P354, -P748, -P970, P464, P822, P992, P935, P663, P239)%R else
  if mu =? 2 then (P568, -P354, -P970, -P748, P120, P885, P822, P935, P239, -P663, -P992, -P464)%R else
  if mu =? 3 then (P120, -P970, -P354, P885, P568, -P748, P992, P239, -P935, -P464, P822, P663)%R else
  if mu =? 4 then (-P354, -P748, P885, P120, -P970, P568, P935, -P663, -P464, P992, -P239, -P822)%R else
  if mu =? 5 then (-P748, P120, P568, -P970, P885, -P354, P663, -P992, P822, -P239, -P464, P935)%R else
  if mu =? 6 then (-P970, P885, -P748, P568, -P354, P120, P239, -P464, P663, -P822, P935, -P992)%R else
  if mu =? 7 then (-P970, P885, -P748, P568, -P354, P120, -P239, P464, -P663, P822, -P935, P992)%R else
  if mu =? 8 then (-P748, P120, P568, -P970, P885, -P354, -P663, P992, -P822, P239, P464, -P935)%R else
  if mu =? 9 then (-P354, -P748, P885, P120, -P970, P568, -P935, P663, P464, -P992, P239, P822)%R else
  if mu =? 10 then (P120, -P970, -P354, P885, P568, -P748, -P992, -P239, P935, P464, -P822, -P663)%R else
  if mu =? 11 then (P568, -P354, -P970, -P748, P120, P885, -P822, -P935, -P239, P663, P992, P464)%R else
  (P885, P568, P120, -P354, -P748, -P970, -P464, -P822, -P992, -P935, -P663, -P239)%R.
(** pfafft.c:943-1029: one iteration for factor 13 *)
Definition module13 (mu : Z) (z : Z -> C) : list C :=
  let '(c1, c2, c3, c4, c5, c6, c7, c8, c9, c10, c11, c12) := coeffs13 mu in
  let z0r := fst (z 0) in let z0i := snd (z 0) in
  let z1r := fst (z 1) in let z1i := snd (z 1) in
  let z2r := fst (z 2) in let z2i := snd (z 2) in
  let z3r := fst (z 3) in let z3i := snd (z 3) in
  let z4r := fst (z 4) in let z4i := snd (z 4) in
  let z5r := fst (z 5) in let z5i := snd (z 5) in
  let z6r := fst (z 6) in let z6i := snd (z 6) in
  let z7r := fst (z 7) in let z7i := snd (z 7) in
  let z8r := fst (z 8) in let z8i := snd (z 8) in
  let z9r := fst (z 9) in let z9i := snd (z 9) in
  let z10r := fst (z 10) in let z10i := snd (z 10) in
  let z11r := fst (z 11) in let z11i := snd (z 11) in
  let z12r := fst (z 12) in let z12i := snd (z 12) in
  let t1r := (z1r + z12r)%R in
  let t1i := (z1i + z12i)%R in
  let t2r := (z2r + z11r)%R in
  let t2i := (z2i + z11i)%R in
  let t3r := (z3r + z10r)%R in
  let t3i := (z3i + z10i)%R in
  let t4r := (z4r + z9r)%R in
  let t4i := (z4i + z9i)%R in
  let t5r := (z5r + z8r)%R in
  let t5i := (z5i + z8i)%R in
  let t6r := (z6r + z7r)%R in
  let t6i := (z6i + z7i)%R in
  let t7r := (z1r - z12r)%R in
  let t7i := (z1i - z12i)%R in
  let t8r := (z2r - z11r)%R in
  let t8i := (z2i - z11i)%R in
  let t9r := (z3r - z10r)%R in
  let t9i := (z3i - z10i)%R in
  let t10r := (z4r - z9r)%R in
  let t10i := (z4i - z9i)%R in
  let t11r := (z5r - z8r)%R in
  let t11i := (z5i - z8i)%R in
  let t12r := (z6r - z7r)%R in
  let t12i := (z6i - z7i)%R in
  let t13r := (z0r - / 2 * t6r)%R in
  let t13i := (z0i - / 2 * t6i)%R in
  let t14r := (t1r - t6r)%R in
  let t14i := (t1i - t6i)%R in
  let t15r := (t2r - t6r)%R in
  let t15i := (t2i - t6i)%R in
  let t16r := (t3r - t6r)%R in
  let t16i := (t3i - t6i)%R in
  let t17r := (t4r - t6r)%R in
  let t17i := (t4i - t6i)%R in
  let t18r := (t5r - t6r)%R in
  let t18i := (t5i - t6i)%R in
  let y1r := (t13r + c1 * t14r + c2 * t15r + c3 * t16r + c4 * t17r + c5 * t18r)%R in
  let y1i := (t13i + c1 * t14i + c2 * t15i + c3 * t16i + c4 * t17i + c5 * t18i)%R in
  let y2r := (t13r + c2 * t14r + c4 * t15r + c6 * t16r + c5 * t17r + c3 * t18r)%R in
  let y2i := (t13i + c2 * t14i + c4 * t15i + c6 * t16i + c5 * t17i + c3 * t18i)%R in
  let y3r := (t13r + c3 * t14r + c6 * t15r + c4 * t16r + c1 * t17r + c2 * t18r)%R in
  let y3i := (t13i + c3 * t14i + c6 * t15i + c4 * t16i + c1 * t17i + c2 * t18i)%R in
  let y4r := (t13r + c4 * t14r + c5 * t15r + c1 * t16r + c3 * t17r + c6 * t18r)%R in
  let y4i := (t13i + c4 * t14i + c5 * t15i + c1 * t16i + c3 * t17i + c6 * t18i)%R in
  let y5r := (t13r + c5 * t14r + c3 * t15r + c2 * t16r + c6 * t17r + c1 * t18r)%R in
  let y5i := (t13i + c5 * t14i + c3 * t15i + c2 * t16i + c6 * t17i + c1 * t18i)%R in
  let y6r := (t13r + c6 * t14r + c1 * t15r + c5 * t16r + c2 * t17r + c4 * t18r)%R in
  let y6i := (t13i + c6 * t14i + c1 * t15i + c5 * t16i + c2 * t17i + c4 * t18i)%R in
  let y7r := (c12 * t7r - c7 * t8r + c11 * t9r - c8 * t10r + c10 * t11r - c9 * t12r)%R in
  let y7i := (c12 * t7i - c7 * t8i + c11 * t9i - c8 * t10i + c10 * t11i - c9 * t12i)%R in
  let y8r := (c11 * t7r - c9 * t8r + c8 * t9r - c12 * t10r - c7 * t11r + c10 * t12r)%R in
  let y8i := (c11 * t7i - c9 * t8i + c8 * t9i - c12 * t10i - c7 * t11i + c10 * t12i)%R in
  let y9r := (c10 * t7r - c11 * t8r - c7 * t9r + c9 * t10r - c12 * t11r - c8 * t12r)%R in
  let y9i := (c10 * t7i - c11 * t8i - c7 * t9i + c9 * t10i - c12 * t11i - c8 * t12i)%R in
  let y10r := (c9 * t7r + c12 * t8r - c10 * t9r - c7 * t10r + c8 * t11r + c11 * t12r)%R in
  let y10i := (c9 * t7i + c12 * t8i - c10 * t9i - c7 * t10i + c8 * t11i + c11 * t12i)%R in
  let y11r := (c8 * t7r + c10 * t8r + c12 * t9r - c11 * t10r - c9 * t11r - c7 * t12r)%R in
  let y11i := (c8 * t7i + c10 * t8i + c12 * t9i - c11 * t10i - c9 * t11i - c7 * t12i)%R in
  let y12r := (c7 * t7r + c8 * t8r + c9 * t9r + c10 * t10r + c11 * t11r + c12 * t12r)%R in
  let y12i := (c7 * t7i + c8 * t8i + c9 * t9i + c10 * t10i + c11 * t11i + c12 * t12i)%R in
  let z0r := (z0r + t1r + t2r + t3r + t4r + t5r + t6r)%R in
  let z0i := (z0i + t1i + t2i + t3i + t4i + t5i + t6i)%R in
  let z1r := (y1r - y12i)%R in
  let z1i := (y1i + y12r)%R in
  let z2r := (y2r - y11i)%R in
  let z2i := (y2i + y11r)%R in
  let z3r := (y3r - y10i)%R in
  let z3i := (y3i + y10r)%R in
  let z4r := (y4r - y9i)%R in
  let z4i := (y4i + y9r)%R in
  let z5r := (y5r - y8i)%R in
  let z5i := (y5i + y8r)%R in
  let z6r := (y6r - y7i)%R in
  let z6i := (y6i + y7r)%R in
  let z7r := (y6r + y7i)%R in
  let z7i := (y6i - y7r)%R in
  let z8r := (y5r + y8i)%R in
  let z8i := (y5i - y8r)%R in
  let z9r := (y4r + y9i)%R in
  let z9i := (y4i - y9r)%R in
  let z10r := (y3r + y10i)%R in
  let z10i := (y3i - y10r)%R in
  let z11r := (y2r + y11i)%R in
  let z11i := (y2i - y11r)%R in
  let z12r := (y1r + y12i)%R in
  let z12i := (y1i - y12r)%R in
  [(z0r, z0i); (z1r, z1i); (z2r, z2i); (z3r, z3i); (z4r, z4i); (z5r, z5i); (z6r, z6i); (z7r, z7i); (z8r, z8i); (z9r, z9i); (z10r, z10i); (z11r, z11i); (z12r, z12i)].
(** pfafft.c:1056-1096: the coefficients c1, c2, c3, c4 of factor 16 *)
Definition coeffs16 (mu : Z) : R * R * R * R :=
  if mu =? 1 then (1, P923, P382, P707)%R else
  if mu =? 3 then (-1, P382, P923, -P707)%R else
  if mu =? 5 then (1, -P382, P923, -P707)%R else
  if mu =? 7 then (-1, -P923, P382, P707)%R else
  if mu =? 9 then (1, -P923, -P382, P707)%R else
  if mu =? 11 then (-1, -P382, -P923, -P707)%R else
  if mu =? 13 then (1, P382, -P923, -P707)%R else
  (-1, P923, -P382, P707)%R.
(** pfafft.c:1097-1244: one iteration for factor 16 *)
Definition module16 (mu : Z) (z : Z -> C) : list C :=
  let '(c1, c2, c3, c4) := coeffs16 mu in
  let c5 := (c1 * c4)%R in
  let c6 := (c1 * c3)%R in
  let c7 := (c1 * c2)%R in
  let z0r := fst (z 0) in let z0i := snd (z 0) in
  let z1r := fst (z 1) in let z1i := snd (z 1) in
  let z2r := fst (z 2) in let z2i := snd (z 2) in
  let z3r := fst (z 3) in let z3i := snd (z 3) in
  let z4r := fst (z 4) in let z4i := snd (z 4) in
  let z5r := fst (z 5) in let z5i := snd (z 5) in
  let z6r := fst (z 6) in let z6i := snd (z 6) in
  let z7r := fst (z 7) in let z7i := snd (z 7) in
  let z8r := fst (z 8) in let z8i := snd (z 8) in
  let z9r := fst (z 9) in let z9i := snd (z 9) in
  let z10r := fst (z 10) in let z10i := snd (z 10) in
  let z11r := fst (z 11) in let z11i := snd (z 11) in
  let z12r := fst (z 12) in let z12i := snd (z 12) in
  let z13r := fst (z 13) in let z13i := snd (z 13) in
  let z14r := fst (z 14) in let z14i := snd (z 14) in
  let z15r := fst (z 15) in let z15i := snd (z 15) in
  let t1r := (z0r + z8r)%R in
  let t1i := (z0i + z8i)%R in
  let t2r := (z4r + z12r)%R in
  let t2i := (z4i + z12i)%R in
  let t3r := (z0r - z8r)%R in
  let t3i := (z0i - z8i)%R in
  let t4r := (c1 * (z4r - z12r))%R in
  let t4i := (c1 * (z4i - z12i))%R in
  let t5r := (t1r + t2r)%R in
  let t5i := (t1i + t2i)%R in
  let t6r := (t1r - t2r)%R in
  let t6i := (t1i - t2i)%R in
  let t7r := (z1r + z9r)%R in
  let t7i := (z1i + z9i)%R in
  let t8r := (z5r + z13r)%R in
  let t8i := (z5i + z13i)%R in
  let t9r := (z1r - z9r)%R in
  let t9i := (z1i - z9i)%R in
  let t10r := (z5r - z13r)%R in
  let t10i := (z5i - z13i)%R in
  let t11r := (t7r + t8r)%R in
  let t11i := (t7i + t8i)%R in
  let t12r := (t7r - t8r)%R in
  let t12i := (t7i - t8i)%R in
  let t13r := (z2r + z10r)%R in
  let t13i := (z2i + z10i)%R in
  let t14r := (z6r + z14r)%R in
  let t14i := (z6i + z14i)%R in
  let t15r := (z2r - z10r)%R in
  let t15i := (z2i - z10i)%R in
  let t16r := (z6r - z14r)%R in
  let t16i := (z6i - z14i)%R in
  let t17r := (t13r + t14r)%R in
  let t17i := (t13i + t14i)%R in
  let t18r := (c4 * (t15r - t16r))%R in
  let t18i := (c4 * (t15i - t16i))%R in
  let t19r := (c5 * (t15r + t16r))%R in
  let t19i := (c5 * (t15i + t16i))%R in
  let t20r := (c1 * (t13r - t14r))%R in
  let t20i := (c1 * (t13i - t14i))%R in
  let t21r := (z3r + z11r)%R in
  let t21i := (z3i + z11i)%R in
  let t22r := (z7r + z15r)%R in
  let t22i := (z7i + z15i)%R in
  let t23r := (z3r - z11r)%R in
  let t23i := (z3i - z11i)%R in
  let t24r := (z7r - z15r)%R in
  let t24i := (z7i - z15i)%R in
  let t25r := (t21r + t22r)%R in
  let t25i := (t21i + t22i)%R in
  let t26r := (t21r - t22r)%R in
  let t26i := (t21i - t22i)%R in
  let t27r := (t9r + t24r)%R in
  let t27i := (t9i + t24i)%R in
  let t28r := (t10r + t23r)%R in
  let t28i := (t10i + t23i)%R in
  let t29r := (t9r - t24r)%R in
  let t29i := (t9i - t24i)%R in
  let t30r := (t10r - t23r)%R in
  let t30i := (t10i - t23i)%R in
  let t31r := (t5r + t17r)%R in
  let t31i := (t5i + t17i)%R in
  let t32r := (t11r + t25r)%R in
  let t32i := (t11i + t25i)%R in
  let t33r := (t3r + t18r)%R in
  let t33i := (t3i + t18i)%R in
  let t34r := (c2 * t29r - c6 * t30r)%R in
  let t34i := (c2 * t29i - c6 * t30i)%R in
  let t35r := (t3r - t18r)%R in
  let t35i := (t3i - t18i)%R in
  let t36r := (c7 * t27r - c3 * t28r)%R in
  let t36i := (c7 * t27i - c3 * t28i)%R in
  let t37r := (t4r + t19r)%R in
  let t37i := (t4i + t19i)%R in
  let t38r := (c3 * t27r + c7 * t28r)%R in
  let t38i := (c3 * t27i + c7 * t28i)%R in
  let t39r := (t4r - t19r)%R in
  let t39i := (t4i - t19i)%R in
  let t40r := (c6 * t29r + c2 * t30r)%R in
  let t40i := (c6 * t29i + c2 * t30i)%R in
  let t41r := (c4 * (t12r - t26r))%R in
  let t41i := (c4 * (t12i - t26i))%R in
  let t42r := (c5 * (t12r + t26r))%R in
  let t42i := (c5 * (t12i + t26i))%R in
  let y1r := (t33r + t34r)%R in
  let y1i := (t33i + t34i)%R in
  let y2r := (t6r + t41r)%R in
  let y2i := (t6i + t41i)%R in
  let y3r := (t35r + t40r)%R in
  let y3i := (t35i + t40i)%R in
  let y4r := (t5r - t17r)%R in
  let y4i := (t5i - t17i)%R in
  let y5r := (t35r - t40r)%R in
  let y5i := (t35i - t40i)%R in
  let y6r := (t6r - t41r)%R in
  let y6i := (t6i - t41i)%R in
  let y7r := (t33r - t34r)%R in
  let y7i := (t33i - t34i)%R in
  let y9r := (t38r - t37r)%R in
  let y9i := (t38i - t37i)%R in
  let y10r := (t42r - t20r)%R in
  let y10i := (t42i - t20i)%R in
  let y11r := (t36r + t39r)%R in
  let y11i := (t36i + t39i)%R in
  let y12r := (c1 * (t11r - t25r))%R in
  let y12i := (c1 * (t11i - t25i))%R in
  let y13r := (t36r - t39r)%R in
  let y13i := (t36i - t39i)%R in
  let y14r := (t42r + t20r)%R in
  let y14i := (t42i + t20i)%R in
  let y15r := (t38r + t37r)%R in
  let y15i := (t38i + t37i)%R in
  let z0r := (t31r + t32r)%R in
  let z0i := (t31i + t32i)%R in
  let z1r := (y1r - y15i)%R in
  let z1i := (y1i + y15r)%R in
  let z2r := (y2r - y14i)%R in
  let z2i := (y2i + y14r)%R in
  let z3r := (y3r - y13i)%R in
  let z3i := (y3i + y13r)%R in
  let z4r := (y4r - y12i)%R in
  let z4i := (y4i + y12r)%R in
  let z5r := (y5r - y11i)%R in
  let z5i := (y5i + y11r)%R in
  let z6r := (y6r - y10i)%R in
  let z6i := (y6i + y10r)%R in
  let z7r := (y7r - y9i)%R in
  let z7i := (y7i + y9r)%R in
  let z8r := (t31r - t32r)%R in
  let z8i := (t31i - t32i)%R in
  let z9r := (y7r + y9i)%R in
  let z9i := (y7i - y9r)%R in
  let z10r := (y6r + y10i)%R in
  let z10i := (y6i - y10r)%R in
  let z11r := (y5r + y11i)%R in
  let z11i := (y5i - y11r)%R in
  let z12r := (y4r + y12i)%R in
  let z12i := (y4i - y12r)%R in
  let z13r := (y3r + y13i)%R in
  let z13i := (y3i - y13r)%R in
  let z14r := (y2r + y14i)%R in
  let z14i := (y2i - y14r)%R in
  let z15r := (y1r + y15i)%R in
  let z15i := (y1i - y15r)%R in
  [(z0r, z0i); (z1r, z1i); (z2r, z2i); (z3r, z3i); (z4r, z4i); (z5r, z5i); (z6r, z6i); (z7r, z7i); (z8r, z8i); (z9r, z9i); (z10r, z10i); (z11r, z11i); (z12r, z12i); (z13r, z13i); (z14r, z14i); (z15r, z15i)].
(** pfafft.c:101-1264: the chain of tests of ifac; other values do not occur *)
Definition module (ifac mu : Z) (z : Z -> C) : list C :=
  if ifac =? 2 then module2 mu z
  else if ifac =? 3 then module3 mu z
  else if ifac =? 4 then module4 mu z
  else if ifac =? 5 then module5 mu z
  else if ifac =? 7 then module7 mu z
  else if ifac =? 8 then module8 mu z
  else if ifac =? 9 then module9 mu z
  else if ifac =? 11 then module11 mu z
  else if ifac =? 13 then module13 mu z
  else if ifac =? 16 then module16 mu z
  else [].

(** pfafft.c:85-90: the first jfac in 1, ..., ifac with (jfac*m) % ifac == 1; without one the last jfac *)
Fixpoint find_mu (fuel : nat) (jfac ifac m : Z) : Z :=
  match fuel with
  | O => ifac
  | S fuel => if (jfac * m) mod ifac =? 1 then jfac else find_mu fuel (jfac + 1) ifac m
  end.
(** pfafft.c:98-99, 117-118 and the like: the first cells 0, mm, 2mm, ...; every addition but the first is
    followed by one subtraction of jmax if the offset is too large (the first never is) *)
Fixpoint cells (k : nat) (j mm n : Z) : list Z :=
  match k with
  | O => []
  | S k => j :: (let j' := j + mm in cells k (if n <=? j' then j' - n else j') mm n)
  end.
(** pfafft.c:1245-1261 and the like: jt = j15+2; j15 = j14+2; ...; j0 = jt *)
Definition rotate (js : list Z) : list Z := (last js 0 + 1) :: map (fun j => j + 1) (removelast js).
(** writing the values of the cells back, in the order of the code *)
Fixpoint store (mem : Z -> C) (js : list Z) (vs : list C) : Z -> C :=
  match js, vs with j :: js, v :: vs => store (upd mem j v) js vs | _, _ => mem end.
(** one iteration of the loop over l *)
Definition pass_step (ifac mu : Z) (s : (Z -> C) * list Z) : (Z -> C) * list Z :=
  (store (fst s) (snd s) (module ifac mu (fun q => fst s (nth (Z.to_nat q) (snd s) 0))), rotate (snd s)).
(** pfafft.c:82-1263: the pass for a factor of n *)
Definition pass (isign n ifac : Z) (z : Z -> C) : Z -> C :=
  let m := n / ifac in
  let mu := find_mu (Z.to_nat ifac) 1 ifac m in
  let mm := mu * m in
  let mu := if isign <? 0 then ifac - mu else mu in
  fst (fold_left (fun s _ => pass_step ifac mu s) (range 0 m) (z, cells (Z.to_nat ifac) 0 mm n)).
(** pfafft.c:53: kfax *)
Definition kfax : list Z := [16; 13; 11; 9; 8; 7; 5; 4; 3; 2].
(** pfafft.c:70-1265: the loop over the factors *)
Fixpoint pfa_loop (isign n : Z) (ks : list Z) (nleft : Z) (z : Z -> C) : Z -> C :=
  match ks with
  | [] => z
  | ifac :: ks =>
      let ndiv := Z.quot nleft ifac in
      if negb (ndiv * ifac =? nleft) then pfa_loop isign n ks nleft z
      else pfa_loop isign n ks ndiv (pass isign n ifac z)
  end.
(** pfafft.c:49-1266: pfacc *)
Definition pfacc (isign n : Z) (z : Z -> C) : Z -> C := pfa_loop isign n kfax n z.
