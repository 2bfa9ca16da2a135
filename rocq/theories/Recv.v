(** Model of fdelmodc/recvPar.c: the receiver positions.  Definitions only.

    Numbers are rational: rounding is not modelled.  The parameters are the lists of values getpar finds (an
    empty list: not given).  Memory from malloc has arbitrary contents, a parameter of the model ([junk], by
    number of the allocation).  A call of verr is [Stop]; an access outside an allocated array, or the use of an
    index that was never set, is [Fault].  A division by zero gives a coordinate that is not a number: [None].
    The loops over the lines act on each line separately and are written as functions of the index of the line.
    cos and sin of an angle in degrees are parameters.
    Not modelled: the ellipse (arcv), the layout of the text file, messages. *)
From Coq Require Import ZArith QArith List Bool.
From Verif Require Import FdKernels Marchenko Makemod RecvSpec.
Import ListNotations.
Local Open Scope Z_scope.

(** the result of a part of recvPar, recvPar.c:25-518 *)
Inductive outcome (A : Type) := Stop | Fault | Done (a : A).
Arguments Stop {A}. Arguments Fault {A}. Arguments Done {A} a.
Definition bind {A B} (o : outcome A) (f : A -> outcome B) : outcome B :=
  match o with Stop => Stop | Fault => Fault | Done a => f a end.

(** xrcv1, xrcv2, zrcv1, zrcv2, dxrcv, dzrcv, xrcva, zrcva, the lines of rcv_txt, and the circle *)
Record pars := { p_x1 : list Q; p_x2 : list Q; p_z1 : list Q; p_z2 : list Q; p_dx : list Q; p_dz : list Q;
                 p_xa : list Q; p_za : list Q; p_txt : list (Q * Q); p_circ : option circle }.

(** countparval, recvPar.c:74-83; comparison of numbers *)
Definition cnt {A} (l : list A) : Z := Z.of_nat (length l).
Definition Qeqb (a b : Q) : bool := Qle_bool a b && Qle_bool b a.
(** getparfloat into an array, and the default for its first element: recvPar.c:99-102, 167-168 *)
Definition getpar (l : list Q) (junk : Z -> Q) (default : Q) : Z -> Q :=
  match l with [] => upd junk 0 default | _ => fun i => if (0 <=? i) && (i <? cnt l) then nth (Z.to_nat i) l 0%Q else junk i end.

Section RECV.
Variables (g : geom) (p : pars) (junk : Z -> Z -> Q) (cosd sind : Q -> Q).

(** recvPar.c:48-56: the number of receivers on the circle *)
Definition ncircle : outcome Z :=
  match p_circ p with None => Done 0 | Some c => if Qeqb (c_dphi c) 0 then Fault else Done (NINT (360 / c_dphi c)) end.
(** recvPar.c:80, 88-91: the number of lines; without any receiver the default line *)
Definition others (nc : Z) : Z := nc + cnt (p_txt p) + cnt (p_xa p).
Definition nlines (nc : Z) : Z := if (others nc =? 0) && (cnt (p_x1 p) =? 0) then 1 else cnt (p_x1 p).
(** recvPar.c:74-76, 80-86 *)
Definition equal_counts : bool :=
  (cnt (p_xa p) =? cnt (p_za p)) && (cnt (p_x1 p) =? cnt (p_x2 p)) && (cnt (p_z1 p) =? cnt (p_z2 p)) && (cnt (p_x1 p) =? cnt (p_z2 p)).

(** recvPar.c:42-44 *)
Definition sub_x1 : Q := (g_x0 g + inject_Z (g_nx g - 1) * g_dx g)%Q.
Definition sub_z1 : Q := (g_z0 g + inject_Z (g_nz g - 1) * g_dz g)%Q.
(** recvPar.c:104-115, 457-468 *)
Definition clamp (lo hi v : Q) : Q := let v := if Qltb v lo then lo else v in if Qltb hi v then hi else v.
Definition clamp_x : Q -> Q := clamp (g_x0 g) (g_x0 g + inject_Z (g_nx g) * g_dx g).
Definition clamp_z : Q -> Q := clamp (g_z0 g) (g_z0 g + inject_Z (g_nz g) * g_dz g).
(** the end points: recvPar.c:95-115 with the allocations 0-3 and recvPar.c:414-422, 457-468 with 6-9 *)
Definition end_x1 (a : Z) (i : Z) : Q := clamp_x (getpar (p_x1 p) (junk a) (g_x0 g) i).
Definition end_x2 (a : Z) (i : Z) : Q := clamp_x (getpar (p_x2 p) (junk (a + 1)) sub_x1 i).
Definition end_z1 (a : Z) (i : Z) : Q := clamp_z (getpar (p_z1 p) (junk (a + 2)) (g_z0 g) i).
Definition end_z2 (a : Z) (i : Z) : Q := clamp_z (getpar (p_z2 p) (junk (a + 3)) (getpar (p_z1 p) (junk (a + 2)) (g_z0 g) 0) i).

(** recvPar.c:117-159: one direction; [None]: the line is refused *)
Definition crop (s0 s1 a b : Q) : option (Q * Q) :=
  let a' := if Qltb a s0 then (if Qltb b s0 then None else Some s0) else if Qltb s1 a then None else Some a in
  match a' with None => None | Some a => if Qltb b a then None else Some (a, if Qltb s1 b then s1 else b) end.

(** recvPar.c:161-192, 424-448: the distances; the counts of the values that are checked afterwards.
    More values than lines are written beyond the arrays. *)
Definition fill (n : Z) (d : Z -> Q) (i : Z) : Q := if (1 <=? i) && (i <? n) then d 0 else d i.
Definition distances (n a : Z) : outcome ((Z -> Q) * (Z -> Q) * Z) :=
  let ndx := cnt (p_dx p) in let ndz := cnt (p_dz p) in
  if (n <? ndx) || (n <? ndz) then Fault else
  let dxr := getpar (p_dx p) (junk a) (g_dx g) in let dzr := getpar (p_dz p) (junk (a + 1)) 0%Q in
  if (ndx <=? 1) && (ndz =? 0) || (ndz =? 1) && (ndx =? 0) then Done (fill n dxr, fill n dzr, 1)
  else if negb (ndx =? ndz) then Stop
  else if negb (ndx =? n) && negb (ndx =? 1) then Stop
  else Done (dxr, dzr, ndx).

(** recvPar.c:194-226 for one line: x1, x2, z1, z2 and the distances; [chk]: the line is among those checked *)
Definition adjust (chk : bool) (x1 x2 z1 z2 sx sz : Q) : Q * Q * Q :=
  if chk then
    let sz := if Qltb sz 0 then g_dz g else sz in
    let (x2, sx) := if Qeqb sx 0 && Qeqb sz 0 then (x1, 1%Q) else (x2, sx) in
    let sx := if Qeqb x1 x2 && negb (Qeqb sx 0) then 0%Q else sx in
    let sz := if Qeqb z1 z2 && negb (Qeqb sz 0) then 0%Q else sz in
    (x2, sx, sz)
  else (x2, sx, sz).
(** recvPar.c:231-243: the number of receivers of a line *)
Definition count (x1 x2 z1 z2 sx sz : Q) : outcome Z :=
  if negb (Qeqb sx 0) then Done (NINT (Qabs' ((x2 - x1) / sx)) + 1)
  else if Qeqb sz 0 then Stop
  else Done (NINT (Qabs' ((z2 - z1) / sz)) + 1).
(** recvPar.c:104-243 for line [i].  recvPar.c:197: a negative dxrcv is repaired at the index i, which is the number
    of lines or was never set *)
Definition line_count (dxr dzr : Z -> Q) (nd i : Z) : outcome Z :=
  match crop (g_x0 g) sub_x1 (end_x1 0 i) (end_x2 0 i), crop (g_z0 g) sub_z1 (end_z1 0 i) (end_z2 0 i) with
  | Some (x1, x2), Some (z1, z2) =>
      if (i <? nd) && Qltb (dxr i) 0 then Fault
      else let '(x2, sx, sz) := adjust (i <? nd) x1 x2 z1 z2 (dxr i) (dzr i) in count x1 x2 z1 z2 sx sz
  | _, _ => Stop
  end.
(** recvPar.c:228-244: the numbers of all lines *)
Definition counts (n : Z) : outcome (Z -> Z) :=
  bind (distances n 4) (fun '(dxr, dzr, nd) =>
    fold_left (fun o i => bind o (fun nl => bind (line_count dxr dzr nd i) (fun k => Done (upd nl i k)))) (range 0 n) (Done (fun _ => 0))).

(** a receiver from its coordinates: recvPar.c:499-503 *)
Definition index (d : Q) (o : option Q) : option Z := match o with Some v => Some (NINT (v / d)) | None => None end.
Definition receiver (xr zr : option Q) : rcv := {| r_xr := xr; r_zr := zr; r_x := index (g_dx g) xr; r_z := index (g_dz g) zr |}.
(** recvPar.c:473-495: the distances used; [None]: division by zero *)
Definition fdiv (a b : Q) : option Q := if Qeqb b 0 then None else Some (a / b)%Q.
Definition used (n : Z) (x1 x2 z1 z2 sx sz : Q) : outcome (option Q * option Q) :=
  if negb (Qeqb sx 0) then Done (Some sx, fdiv (z2 - z1) (inject_Z (n - 1)))
  else if Qeqb sz 0 then Stop
  else Done (fdiv (x2 - x1) (inject_Z (n - 1)), Some sz).
(** recvPar.c:499-500 *)
Definition along (a : Q) (ir : Z) (step : option Q) : option Q := match step with Some s => Some (a + inject_Z ir * s)%Q | None => None end.
(** recvPar.c:472-506: the receivers of line [i], with the end points and distances read again *)
Definition line_receivers (dxr dzr : Z -> Q) (nl : Z -> Z) (i : Z) : outcome (list rcv) :=
  let x1 := end_x1 6 i in let x2 := end_x2 6 i in let z1 := end_z1 6 i in let z2 := end_z2 6 i in
  bind (used (nl i) x1 x2 z1 z2 (dxr i) (dzr i)) (fun '(sx, sz) =>
    Done (map (fun ir => receiver (along (x1 - g_x0 g) ir sx) (along (z1 - g_z0 g) ir sz)) (range 0 (nl i)))).

(** storing receivers one after another; the arrays have [size] elements: recvPar.c:292-301, 504 *)
Definition store (size : Z) (o : outcome (Z * (Z -> option rcv))) (r : rcv) : outcome (Z * (Z -> option rcv)) :=
  bind o (fun '(k, m) => if (0 <=? k) && (k <? size) then Done (k + 1, upd m k (Some r)) else Fault).
Definition store_all (size : Z) (l : list rcv) (o : outcome (Z * (Z -> option rcv))) : outcome (Z * (Z -> option rcv)) :=
  fold_left (store size) l o.

(** recvPar.c:306-320, 360-365: the circle, moved to the edges of the model *)
Definition into (n : Z) (o : option Z) : option Z := match o with Some v => Some (Z.min (n - 1) (Z.max v 0)) | None => None end.
Definition on_circle (c : circle) (i : Z) : rcv :=
  let r := receiver (Some (c_ox c - g_x0 g + c_r c * cosd (inject_Z i * c_dphi c))%Q) (Some (c_oz c - g_z0 g + c_r c * sind (inject_Z i * c_dphi c))%Q) in
  {| r_xr := r_xr r; r_zr := r_zr r; r_x := into (g_nx g) (r_x r); r_z := into (g_nz g) (r_z r) |}.
Definition circle_receivers (nc : Z) : list rcv := match p_circ p with None => [] | Some c => map (on_circle c) (range 0 nc) end.
(** recvPar.c:380-390, 400-411: points of the text file and of xrcva, zrcva *)
Definition point (x z : Q) : rcv := receiver (Some (x - g_x0 g)%Q) (Some (z - g_z0 g)%Q).
Definition text_receivers : list rcv := map (fun q => point (fst q) (snd q)) (p_txt p).
Definition array_receivers : list rcv := map (fun i => point (nth (Z.to_nat i) (p_xa p) 0%Q) (nth (Z.to_nat i) (p_za p) 0%Q)) (range 0 (cnt (p_xa p))).

(** the whole of recvPar.c: the number of receivers and the arrays *)
Definition recvpar : outcome (Z * (Z -> option rcv)) :=
  bind ncircle (fun nc =>
  if negb equal_counts then Stop else
  let n := nlines nc in
  bind (if n =? 0 then Done (fun _ => 0) else counts n) (fun nl =>
  let nrcv := fold_left (fun s i => s + nl i) (range 0 n) 0 in
  let size := others nc + nrcv in
  bind (store_all size (circle_receivers nc) (Done (0, fun _ => None))) (fun '(_, m) =>
  bind (store_all size array_receivers (store_all size text_receivers (Done (nc, m)))) (fun '(k, m) =>
  bind (if nrcv =? 0 then Done (k, m)
        else bind (distances n 10) (fun '(dxr, dzr, _) =>
          fold_left (fun o i => bind o (fun km => bind (line_receivers dxr dzr nl i) (fun l => store_all size l (Done km)))) (range 0 n) (Done (k, m))))
       (fun '(_, m) => Done (size, m)))))).
End RECV.
