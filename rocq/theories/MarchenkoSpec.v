(** What the mute windows, the positions and the integration of marchenko/ are to compute: a
    specification that does not use the loops of the model. *)
From Coq Require Import ZArith QArith List Bool.
Import ListNotations.
Local Open Scope Z_scope.

(** ** windows
    A window with a taper of s samples: it keeps the trace, clears it between two times (Stop), keeps
    it only between two times (Pass), from a time on (From), or until a time (Until). *)
Inductive shape := Keep | Nothing | Stop (lo hi : Z) | Pass (lo hi : Z) | From (lo : Z) | Until (hi : Z).
Section Gain.
Variable V : Type.
Variables (v0 v1 : V).
Variable c : Z -> V.   (* the taper, falling *)
Definition gain (s : Z) (w : shape) (t : Z) : V :=
  match w with
  | Keep => v1
  | Nothing => v0
  | Stop lo hi => if t <? lo - s then v1 else if t <? lo then c (t - (lo - s)) else if t <? hi then v0
                  else if t <? hi + s then c (s - 1 - (t - hi)) else v1
  | Pass lo hi => if t <? lo - s then v0 else if t <? lo then c (s - 1 - (t - (lo - s))) else if t <? hi then v1
                  else if t <? hi + s then c (t - hi) else v0
  | From lo => if t <? lo - s then v0 else if t <? lo then c (s - 1 - (t - (lo - s))) else v1
  | Until hi => if t <? hi then v1 else if t <? hi + s then c (t - hi) else v0
  end.
End Gain.
(** the window of a trace whose direct arrival is at sample tm, with a focusing shift of ts samples *)
Definition shape_of (above nt tm ts sh : Z) : shape :=
  let early := tm - sh - 2 * ts in
  match above with
  | 0 => if tm <? nt / 2 then Stop early (nt + 1 - early) else Nothing
  | 4 | -4 => Pass early (nt + 1 - early)
  | 6 => if tm <? nt / 2 then Stop (tm + sh - 2 * ts) (nt - (tm - sh)) else Nothing
  | -6 => if tm <? nt / 2 then Stop early (nt - (tm + sh)) else Nothing
  | 10 => Pass (tm + sh) (nt - (tm - sh))
  | 2 | 7 => Pass (tm - sh) (tm + sh)
  | -7 => Stop (tm - sh) (tm + sh)
  | 1 => From early
  | -1 => Until (tm - sh + ts)
  | _ => Keep
  end.
(** the window with its tapers lies within the trace *)
Definition inside (nt s : Z) (w : shape) : Prop :=
  0 <= s /\ match w with
            | Stop lo hi | Pass lo hi => s <= lo <= hi /\ hi + s <= nt
            | From lo => s <= lo <= nt
            | Until hi => 0 <= hi /\ hi + s <= nt
            | _ => True
            end.
(** sample of time -t on a periodic axis *)
Definition reversed (nt t : Z) : Z := (- t) mod nt.
(** the windows for plane waves and for shifted times, at even and odd iterations: a is the time of
    the wave on the positive time axis and b that on the negative one; they change places *)
Definition shape_plane (above nt s a b sh : Z) : shape :=
  match above with
  | 1 => Stop (a - sh) (nt + 1 - (b - sh))
  | 4 => Pass (a - sh) (nt + 1 - (b - sh) - s)
  | 11 => Until (a - sh - s)
  | 44 => From (a - sh)
  | _ => Keep
  end.
Definition parity {X} (iter : Z) (even odd : X) : X := if Z.even iter then even else odd.

(** ** integration
    The records of the model are used for the input: the geometry and the reflection data of the
    acquisition, and the place of a coordinate on the grid of positions (NINT).  Fields are functions
    of the focal point, the position and the time. *)
From Verif Require Import Marchenko.
Section Integral.
Variable V : Type.
Variables (v0 : V) (vadd vmul : V -> V -> V) (vopp : V -> V).
Variables (rc : (Z -> V) -> Z -> V * V) (cr : (Z -> V * V) -> Z -> V).
Variable A : acquisition V.
Notation add2 := (cadd V vadd).
Notation mul2 := (cmul V vadd vmul vopp).
Fixpoint vsum (n : nat) (f : Z -> V) : V := match n with O => v0 | S n => vadd (vsum n f) (f (Z.of_nat n)) end.
Fixpoint csum (n : nat) (f : Z -> V * V) : V * V := match n with O => (v0, v0) | S n => add2 (csum n f) (f (Z.of_nat n)) end.
Definition field := Z -> Z -> Z -> V.
Definition nshots := length (xsrc V A).
Definition inside_shot (k : Z) : bool := in_aperture (fxsb V A) (fxse V A) (nth (Z.to_nat k) (xsrc V A) 0%Q).
Definition shot_at (k : Z) : Z := position (fxsb V A) (dxs V A) (nth (Z.to_nat k) (xsrc V A) 0%Q).
Definition receiver_at (k i : Z) : Z := position (fxsb V A) (dxs V A) (xrcv V A (k * nx V A + i)).
Definition reflection (k i w : Z) : V * V := Refl V A (k * nw V A * nx V A + (w - nw_low V A) * nx V A + i).
Definition in_band (w : Z) : bool := (nw_low V A <=? w) && (w <? nw_low V A + nw V A).
(** the spectrum of a field at a position, conjugated if mode is false *)
Definition spectrum (mode : bool) (F : field) (l x w : Z) : V * V :=
  let c := rc (F l x) w in if mode then c else (fst c, vopp (snd c)).
(** the sum over the receivers of shot k of its reflection data and the field *)
Definition shot_integral (mode : bool) (F : field) (k l w : Z) : V * V :=
  if in_band w then csum (Z.to_nat (xnx V A k)) (fun i => mul2 (reflection k i w) (spectrum mode F l (receiver_at k i) w)) else (v0, v0).
(** the same for position x with sources and receivers interchanged, from the tables of the reader *)
Definition reciprocal_integral (mode : bool) (F : field) (x l w : Z) : V * V :=
  if in_band w then csum (Z.to_nat (isxcount V A x)) (fun i =>
      let k := reci_xrcv V A (x * nxs V A + i) in
      mul2 (reflection k (reci_xsrc V A (x * nxs V A + i)) w) (spectrum mode F l (shot_at k) w))
  else (v0, v0).
(** the integrated field at position x *)
Definition integrated (mode : bool) (reci : Z) (F : field) : field := fun l x j =>
  let direct := if (reci =? 0) || (reci =? 1) then
      vsum nshots (fun k => if inside_shot k && (shot_at k =? x) then vmul (vmul (cr (shot_integral mode F k l) j) (scl V A)) (dx V A) else v0)
    else v0 in
  if (reci =? 0) || (isxcount V A x =? 0) then direct
  else vmul (ixmask V A x) (vadd direct (vmul (vmul (cr (reciprocal_integral mode F x l) j) (scl V A)) (dxsrc V A))).
(** the shots and receivers in use are on the grid of positions *)
Record geometry : Prop := mk_geometry {
  g_nxs : 0 < nxs V A; g_nts : 0 < nts V A; g_nw : 0 <= nw V A;
  g_src : forall k, 0 <= k < Z.of_nat nshots -> inside_shot k = true -> 0 <= shot_at k < nxs V A;
  g_rcv : forall k i, 0 <= k < Z.of_nat nshots -> inside_shot k = true -> 0 <= i < xnx V A k -> 0 <= receiver_at k i < nxs V A;
  g_rec : forall x i, 0 <= x < nxs V A -> 0 <= i < isxcount V A x -> 0 <= shot_at (reci_xrcv V A (x * nxs V A + i)) < nxs V A }.
(** no two shots in use at one position *)
Definition distinct_shots : Prop := forall k k', 0 <= k < Z.of_nat nshots -> 0 <= k' < Z.of_nat nshots -> inside_shot k = true -> inside_shot k' = true -> shot_at k = shot_at k' -> k = k'.
(** a field is stored in an array with a trace for each position, or with a trace for each of the
    positions ixpos only *)
Definition stored (Top : Z -> V) (F : field) : Prop :=
  forall l x j, 0 <= l < Nfoc V A -> 0 <= x < nxs V A -> 0 <= j < nts V A -> Top (l * nxs V A * nts V A + x * nts V A + j) = F l x j.
Definition packed (ixpos : list Z) (Top : Z -> V) (F : field) : Prop :=
  forall l j, 0 <= l < Nfoc V A -> 0 <= j < nts V A ->
  (forall i x, nth_error ixpos i = Some x -> Top (l * nxs V A * nts V A + Z.of_nat i * nts V A + j) = F l x j).
Definition vanishes_off (ixpos : list Z) (F : field) : Prop := forall l x j, ~ In x ixpos -> F l x j = v0.

(** ** the iteration: N_0 = G_d and N_(k+1)(x,t) = - w(x,t) (R N_k)(x,-t) at the positions ixpos *)
Section Iterate.
Variables (reci : Z) (ixpos : list Z) (w : field) (G_d : field).
Definition Rop : field -> field := integrated true reci.
Definition minus_t (j : Z) : Z := reversed (nts V A) j.
Fixpoint N (k : nat) : field := match k with
  | O => G_d
  | S k => fun l x j => if in_dec Z.eq_dec x ixpos then vopp (vmul (w l x j) (Rop (N k) l x (minus_t j))) else v0
  end.
(** the sum over the k < n with p k *)
Fixpoint sum_over (p : nat -> bool) (n : nat) (f : nat -> field) : field := match n with
  | O => fun _ _ _ => v0
  | S n => fun l x j => if p n then vadd (sum_over p n f l x j) (f n l x j) else sum_over p n f l x j
  end.
(** after n iterations *)
Definition f1_plus (n : nat) : field := sum_over Nat.even (S n) N.
Definition f1_min (n : nat) : field := fun l x j => vopp (sum_over Nat.odd (S n) N l x (minus_t j)).
Definition f2_plus (n : nat) : field := sum_over (fun _ => true) (S n) N.
Definition p_min (n : nat) : field := sum_over (fun _ => true) n (fun k => Rop (N k)).
(** a field restricted to the positions *)
Definition restricted (F : field) : field := fun l x j => if in_dec Z.eq_dec x ixpos then F l x j else v0.
End Iterate.
End Integral.
