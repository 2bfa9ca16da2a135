(** fdelmodc/applySource.c: injection of the sources in one time step.  Numbers are real numbers; the five arrays are
    functions of the address ix*n1+iz.  All updates of the source are += or -= of values that do not depend on these
    arrays, so that a source is a list of increments. *)
From Coq Require Import ZArith Reals List Bool.
From Verif Require Import FdKernels ReadModel SourceSpec.
Import ListNotations.
Local Open Scope Z_scope.

Definition array_eqb (a c : array) : bool :=
  match a, c with Avx, Avx | Avz, Avz | Atzz, Atzz | Atxx, Atxx | Atxz, Atxz => true | _, _ => false end.
Definition arrays := array -> Z -> R.
Definition increment := (array * Z * R)%type.
Definition apply (f : arrays) (i : increment) : arrays :=
  let '(a, j, v) := i in fun a' j' => if array_eqb a a' && (j =? j') then (f a' j' + v)%R else f a' j'.

(** fdelmodc.h: srcPar, and the parts of wavPar and modPar that are used.  [freely]: src.random || src.multiwav *)
Record src := mkSrc { s_n : nat; s_type : Z; s_orient : Z; s_freely : bool; s_multiwav : bool; s_plane : bool; s_window : Z;
  s_x : nat -> Z; s_z : nat -> Z; s_tbeg : nat -> R; s_tend : nat -> R; s_Mxx : R; s_Mzz : R; s_Mxz : R; s_wx : R; s_wz : R }.
Record step := mkStep { t_itime : Z; t_dt : R; t_t0 : R; t_dx : R; t_nt : Z; t_ischeme : Z; t_ixsrc : Z; t_izsrc : Z }.
Section APPLY.
Variables (g : FdKernels.grid) (b : bnd) (s : src) (t : step).
Variables (rox roz l2m : Z -> R) (wavelets : nat -> Z -> R).
Let n1 := naz g.
(** applySource.c:33-57 without top=5; getParameters.c:422-507: padding of absorbing sides *)
Definition ibndx : Z :=
  if s_type s =? 6 then ioXx g else if s_type s =? 7 then ioZx g
  else if s_type s =? 2 then ioTx g + pad b (lef b) else ioPx g + pad b (lef b).
Definition ibndz : Z :=
  if s_type s =? 6 then ioXz g else if s_type s =? 7 then ioZz g
  else if s_type s =? 2 then ioTz g + pad b (top b) else ioPz g + pad b (top b).
(** applySource.c:65-76 *)
Definition orient : Z :=
  if (top b =? 1) && (s_type s =? 2) && (t_izsrc t + ibndz =? ibndz) then 1 else s_orient s.
(** applySource.c:88 *)
Definition is0 : Z := -1 * ((Z.of_nat (s_n s) - 1) / 2).
(** applySource.c:93-104 *)
Definition position (isrc : nat) : Z * Z :=
  if s_freely s then (s_x s isrc + ibndx, s_z s isrc + ibndz)
  else if s_plane s then (t_ixsrc t + ibndx + s_x s isrc, t_izsrc t + ibndz + s_z s isrc)
  else (t_ixsrc t + ibndx + is0 + Z.of_nat isrc, t_izsrc t + ibndz).
(** applySource.c:106-108 *)
Definition time (isrc : nat) : R := (IZR (t_itime t) * t_dt t - s_tbeg s isrc + t_t0 t)%R.
Definition id1 (isrc : nat) : Z := Int_part (time isrc / t_dt t).
Definition id2 (isrc : nat) : Z := id1 isrc + 1.
(** applySource.c:111 *)
Definition passes (isrc : nat) : bool :=
  negb ((if Rlt_dec (time isrc) 0 then true else false) ||
        (if Rle_dec (s_tend s isrc) (IZR (t_itime t) * t_dt t + t_t0 t) then true else false) || (t_nt t <? id2 isrc)).
(** applySource.c:115-120; the samples of the wavelets that are read *)
Definition wavelet (isrc : nat) : nat := if s_multiwav s then isrc else 0%nat.
Definition samples (isrc : nat) : list (nat * Z) := if passes isrc then [(wavelet isrc, id1 isrc); (wavelet isrc, id2 isrc)] else [].
Definition value (isrc : nat) : R :=
  (wavelets (wavelet isrc) (id1 isrc) * (IZR (id2 isrc) - time isrc / t_dt t) +
   wavelets (wavelet isrc) (id2 isrc) * (time isrc / t_dt t - IZR (id1 isrc)))%R.
(** applySource.c:122-123: a source with value 0 is left out, which does not matter; outside of the grid *)
Definition outside (isrc : nat) : bool := (fst (position isrc) - ibndx <? 0) || (nx g <? fst (position isrc) - ibndx).
(** applySource.c:129-139 *)
Definition scl (isrc : nat) : R :=
  let i := Z.of_nat isrc in let w := s_window s in let n := Z.of_nat (s_n s) in
  if i <? w then cos (/ 2 * PI * IZR (w - i) / IZR w)
  else if n - w + 1 <? i then cos (/ 2 * PI * IZR (w - (n - i + 1)) / IZR w) else 1%R.
Definition windowed (isrc : nat) (v : R) : R :=
  if (1 <? Z.of_nat (s_n s)) && negb (s_window s =? 0) then (v * (scl isrc * scl isrc))%R else v.
(** applySource.c:148 *)
Definition ampl (isrc : nat) : R :=
  let '(ix, iz) := position isrc in (windowed isrc (value isrc) * (1 / t_dx t * l2m (ix * n1 + iz)%Z))%R.

(** applySource.c:158-179: increments of the force sources at ix, iz with src_ampl a *)
Definition forces (ix iz : Z) (a : R) : list increment :=
  let i := ix * n1 + iz in
  if s_type s =? 6 then [(Avx, i, (/ 2 * a * rox i / l2m i)%R)]
  else if s_type s =? 7 then [(Avz, i, (a * roz i / l2m i)%R)]
  else if s_type s =? 10 then
    [(Atzz, i - 1, (- (a * roz i / (2 * t_dt t)))%R); (Atzz, i + 1, (a * roz i / (2 * t_dt t))%R)]
  else if s_type s =? 12 then
    [(Avx, i, (s_wx s * a * rox i / l2m i)%R); (Avx, i + n1, (s_wx s * a * rox (i + n1)%Z / l2m (i + n1)%Z)%R);
     (Avz, i, (s_wz s * a * roz i / l2m i)%R); (Avz, i + 1, (s_wz s * a * roz (i + 1)%Z / l2m (i + 1)%Z)%R)]
  else [].
(** applySource.c:187-209 and 215-247: compressional source in one array *)
Definition compressional (f : array) (ix iz : Z) (a : R) : list increment :=
  let i := ix * n1 + iz in
  let a := if orient =? 1 then a else (a / t_dx t)%R in
  if orient =? 1 then [(f, i, a)]
  else if orient =? 2 then [(f, i, a); (f, i + 1, (- a)%R)]
  else if orient =? 3 then [(f, i, a); (f, i - n1, (- a)%R)]
  else if orient =? 4 then (if ibndz <? iz then [(f, i - 1, (/ 2 * a)%R)] else []) ++ (if iz <? nz g + ibndz - 1 then [(f, i + 1, (- (/ 2 * a))%R)] else [])
  else if orient =? 5 then [(f, i, a); (f, i + n1, (- a)%R)]
  else [].
(** applySource.c:249-273 *)
Definition shear_stress (ix iz : Z) (a : R) : list increment :=
  let i := ix * n1 + iz in
  (if (iz =? ibndz) && (top b =? 1) then [(Atxz, i - n1 - 1, a); (Atxz, i - 1, a)] else [(Atxz, i, a)]) ++
  (if orient =? 2 then [(Atxz, i + 1, (- a)%R)]
   else if orient =? 3 then [(Atxz, i - n1, (- a)%R)]
   else if orient =? 4 then [(Atxz, i, (- (2 * a))%R); (Atxz, i + 1, a)]
   else if orient =? 5 then [(Atxz, i + n1, (- a)%R)] else []).
(** applySource.c:291-294, and with the other sign 312-315, 319-322: rotation *)
Definition rotation_at (i : Z) (v : R) : list increment :=
  [(Avx, i, v); (Avx, i - 1, (- v)%R); (Avz, i, (- v)%R); (Avz, i - n1, v)].
(** applySource.c:287-324 *)
Definition s_potential (ix iz : Z) (a : R) : list increment :=
  let i := ix * n1 + iz in
  let a := (a * rox i / l2m i)%R in
  let a := if orient =? 3 then (- a)%R else a in
  let v := (a * (1 / t_dx t))%R in
  rotation_at i v ++ (if orient =? 2 then rotation_at (i + 1) (- v)%R else if orient =? 3 then rotation_at (i + n1) (- v)%R else []).
(** applySource.c:332-335, and with the other sign 339-342, 346-349: expansion *)
Definition expansion_at (i : Z) (v : R) : list increment :=
  [(Avx, i + n1, v); (Avx, i, (- v)%R); (Avz, i + 1, v); (Avz, i, (- v)%R)].
(** applySource.c:329-351 *)
Definition p_potential (ix iz : Z) (a : R) : list increment :=
  let i := ix * n1 + iz in
  let a := (a * rox i / l2m i)%R in
  let a := if orient =? 3 then (- a)%R else a in
  let v := (a * (1 / t_dx t))%R in
  expansion_at i v ++ (if orient =? 2 then expansion_at (i + 1) (- v)%R else if orient =? 3 then expansion_at (i + n1) (- v)%R else []).
(** applySource.c:361-373; c1, c2: applySource.c:9-10 *)
Definition c1 : R := (9 / 8)%R.
Definition c2 : R := (- 1 / 24)%R.
Definition s_zibi (ix iz : Z) (a : R) : list increment :=
  let i := ix * n1 + iz in
  let v := (a * rox i / l2m i * (1 / t_dx t))%R in
  [(Avx, i, (c1 * v)%R); (Avx, i - 1, (- (c1 * v))%R); (Avx, i + 1, (c2 * v)%R); (Avx, i - 2, (- (c2 * v))%R);
   (Avz, i, (- (c1 * v))%R); (Avz, i - n1, (c1 * v)%R); (Avz, i + n1, (- (c2 * v))%R); (Avz, i - 2 * n1, (c2 * v)%R)].
(** applySource.c:184-374 *)
Definition stresses (ix iz : Z) (a : R) : list increment :=
  let i := ix * n1 + iz in
  if t_ischeme t <=? 2 then (if s_type s =? 1 then compressional Atzz ix iz a else [])
  else if s_type s =? 1 then compressional Atxx ix iz a ++ compressional Atzz ix iz a
  else if s_type s =? 2 then shear_stress ix iz a
  else if s_type s =? 3 then [(Atzz, i, a)]
  else if s_type s =? 4 then [(Atxx, i, a)]
  else if s_type s =? 5 then s_potential ix iz a
  else if s_type s =? 8 then p_potential ix iz a
  else if (s_type s =? 9) || (s_type s =? 11) then [(Atxx, i, (- (s_Mxx s * a))%R); (Atzz, i, (- (s_Mzz s * a))%R); (Atxz, i, (- (s_Mxz s * a))%R)]
  else if s_type s =? 13 then s_zibi ix iz a
  else [].
(** applySource.c:90-376 *)
Definition one_source (isrc : nat) : list increment :=
  if passes isrc && negb (outside isrc) then
    let '(ix, iz) := position isrc in forces ix iz (ampl isrc) ++ stresses ix iz (ampl isrc)
  else [].
Definition applySource (f : arrays) : arrays := fold_left apply (flat_map one_source (seq 0 (s_n s))) f.
End APPLY.
(** getParameters.c:893-922: begin, end and positions of the sources of a plane wave with ray parameter p, and mod.t0; one
    source for a point source.  n: nsrc after the restriction to the number of grid points *)
Definition plane_is0 (n : nat) : Z := -1 * ((Z.of_nat n - 1) / 2).
Definition plane_tbeg (n : nat) (dx p : R) (i : nat) : R := (IZR (Z.of_nat i + plane_is0 n) * dx * p)%R.
Definition plane_t0 (n : nat) (dx p : R) : R := Rmin (IZR (plane_is0 n) * dx * p) (IZR (Z.of_nat n + plane_is0 n) * dx * p).
Definition plane_tend (n : nat) (dx p : R) (nt : Z) (dt : R) (i : nat) : R := (plane_tbeg n dx p i + IZR (nt - 1) * dt)%R.
Definition plane_x (n : nat) (i : nat) : Z := plane_is0 n + Z.of_nat i.
(** getParameters.c:740-741 and fdelmodc.h:NINT for positive numbers: end and number of samples of a random signal *)
Definition random_tend (tbeg length tactive : R) : R := Rmin (tbeg + length) tactive.
Definition random_nsamp (tbeg tend dt : R) : Z := Int_part ((tend - tbeg) / dt + / 2) + 1.
