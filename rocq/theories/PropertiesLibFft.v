(** Properties of the complex transform with its static state (C32). *)
From Coq Require Import ZArith Reals List Lia Lra Bool.
From Verif Require Import FdKernels FdProofs FdOutputProofs Marchenko MarchenkoProofs KissFft FftSpec FftAux FftInverse KissFftProofs FftSize PropertiesFftSize Pfa PfaProofs PropertiesPfa LibFft.
Import ListNotations.
Local Open Scope Z_scope.

(** The output of a call: the discrete Fourier transform of its values in its direction. *)
Definition correct (c : call) (out : Z -> C) : Prop :=
  forall k, out k = if (0 <=? k) && (k <? length_ c) then dft (length_ c) (direction c) (values c) k else values c k.
Definition legal (c : call) : Prop := 1 <= length_ c /\ (direction c = 1 \/ direction c = -1).

(** ** proofs *)
Lemma prime_factor_supported n : 1 <= n -> prime_factor n = true -> supported n.
Proof.
  unfold prime_factor. intros Hn H. apply andb_true_iff in H as [_ H]. apply Z.eqb_eq in H.
  destruct (Z.le_gt_cases n 720720) as [L|L]; [rewrite <- H; now apply C30_smallest|].
  destruct (C30_limit_refuted n L) as [E1 _]. lia.
Qed.
Lemma transform_ok g c n st : legal c -> (prime_factor (length_ c) = false -> cfg g (thread c) = Some (n, st) /\ n = length_ c /\ state_of n (previous_sign g) st /\ (previous_sign g = 1 \/ previous_sign g = -1)) ->
  exists g' out, transform g c = Some (g', out) /\ correct c out /\
    (prime_factor (length_ c) = true -> g' = g) /\
    (prime_factor (length_ c) = false -> previous_sign g' = direction c /\ exists st', cfg g' = upd (cfg g) (thread c) (Some (length_ c, st')) /\ state_of (length_ c) (direction c) st').
Proof.
  intros [L1 L2] H. unfold transform. destruct (prime_factor (length_ c)) eqn:P.
  - exists g, (pfacc (direction c) (length_ c) (values c)). split; [reflexivity|]. split; [|split; [auto|discriminate]]. intros k. apply C31_prime_factor; [now apply prime_factor_supported|exact L2].
  - destruct (H eq_refl) as (E & -> & S & Hp). rewrite E. pose proof (kiss_ok st (length_ c) (direction c) (previous_sign g) (values c) L1 L2 Hp S) as K.
    destruct (kiss_fft st (values c) (length_ c) (direction c) (previous_sign g)) as [[st' p'] out]. destruct K as (S' & -> & K1 & K2).
    eexists _, out. split; [reflexivity|]. split; [|split; [discriminate|]].
    + intros k. destruct (Z.leb_spec 0 k), (Z.ltb_spec k (length_ c)); cbn; [apply K1|apply K2|apply K2|apply K2]; lia.
    + intros _. cbn. split; [reflexivity|]. exists st'. now split.
Qed.
Lemma prepare_ok g c : legal c -> (prime_factor (length_ c) = true /\ prepare g c = Some g) \/
  (prime_factor (length_ c) = false /\ exists st, cfg g (thread c) = Some (length_ c, st) /\ prepare g c = Some g) \/
  (prime_factor (length_ c) = false /\ exists st, prepare g c = Some {| previous_sign := -1; cfg := upd (cfg g) (thread c) (Some (length_ c, st)) |} /\ state_of (length_ c) (-1) st).
Proof.
  intros [L1 _]. unfold prepare. destruct (prime_factor (length_ c)) eqn:P; [left; auto|right].
  destruct (alloc_ok (length_ c) L1) as (st & E & S). rewrite E. destruct (cfg g (thread c)) as [[n st0]|] eqn:G; [destruct (Z.eqb_spec (length_ c) n) as [-> |N]|].
  - left. split; [reflexivity|]. exists st0. auto.
  - right. split; [reflexivity|]. exists st. auto.
  - right. split; [reflexivity|]. exists st. auto.
Qed.
(** the states of the threads in the set P agree with the sign *)
Definition agree (P : Z -> Prop) (g : fft_state) : Prop :=
  forall id n st, P id -> cfg g id = Some (n, st) -> (previous_sign g = 1 \/ previous_sign g = -1) /\ state_of n (previous_sign g) st.
Lemma run_ok P cs : forall g, agree P g ->
  (forall g c, agree P g -> In c cs -> exists g' out, cc1_fft g c = Some (g', out) /\ correct c out /\ agree P g') ->
  exists outs, run g cs = Some outs /\ Forall2 correct cs outs.
Proof.
  induction cs as [|c cs IH]; intros g A H; [exists []; split; [reflexivity|constructor]|].
  destruct (H g c A (or_introl eq_refl)) as (g' & out & E & Co & A'). destruct (IH g' A') as (outs & E' & F); [intros g0 c0 A0 I0; apply H; [exact A0|now right]|].
  exists (out :: outs). cbn [run]. rewrite E, E'. split; [reflexivity|]. now constructor.
Qed.
Lemma upd_eq {V} (f : Z -> V) a v x : upd f a v x = if x =? a then v else f x.
Proof. reflexivity. Qed.

Lemma run_events_calls es : forall g outs, run_events g es = Some outs -> forall c, In (Transform c) es -> exists out, In (c, out) outs.
Proof.
  induction es as [|[c|c] es IH]; intros g outs E c' I; [destruct I| |]; cbn [run_events] in E.
  - destruct I as [I|I]; [discriminate I|]. destruct (prepare g c) as [g'|]; [|discriminate E]. eapply IH; eassumption.
  - destruct (transform g c) as [[g' out]|]; [|discriminate E]. destruct (run_events g' es) as [outs'|] eqn:E'; [|discriminate E]. injection E as <-.
    destruct I as [I|I]; [injection I as ->; exists out; now left|]. destruct (IH g' outs' E' c' I) as (o & I'). exists o. now right.
Qed.

(** ** C32 *)
(** One thread: whatever was transformed before, every call gives the transform it asks for. *)
Theorem C32_history cs t : (forall c, In c cs -> legal c /\ thread c = t) ->
  exists outs, run fft_init cs = Some outs /\ Forall2 correct cs outs.
Proof.
  intros H. apply (run_ok (fun id => id = t)); [intros id n st _ E; discriminate E|].
  intros g c A I. destruct (H c I) as [L T]. unfold cc1_fft.
  destruct (prepare_ok g c L) as [[P E]|[(P & st & G & E)|(P & st & E & S)]]; rewrite E.
  - destruct (transform_ok g c 0 {| nfft := 0; inverse := false; factors := []; twiddles := fun _ => c0 |} L) as (g' & out & E' & Co & U & _); [congruence|]. rewrite (U P) in E'. exists g, out. split; [exact E'|]. split; [exact Co|]. first [exact A|split; [exact A|reflexivity]].
  - destruct (A t (length_ c) st eq_refl) as [A1 A2]; [now rewrite <- T|]. destruct (transform_ok g c (length_ c) st L) as (g' & out & E' & Co & _ & U); [auto|]. destruct (U P) as (U1 & st' & U2 & U3).
    exists g', out. split; [exact E'|]. split; [exact Co|]. intros id n st0 -> G'. rewrite U2, upd_eq, T, Z.eqb_refl in G'. injection G' as <- <-. rewrite U1. split; [apply L|exact U3].
  - set (g1 := {| previous_sign := -1; cfg := _ |}). destruct (transform_ok g1 c (length_ c) st L) as (g' & out & E' & Co & _ & U); [intros _; cbn; rewrite upd_eq, Z.eqb_refl; auto|]. destruct (U P) as (U1 & st' & U2 & U3).
    exists g', out. split; [exact E'|]. split; [exact Co|]. intros id n st0 -> G'. rewrite U2, upd_eq, T, Z.eqb_refl in G'. injection G' as <- <-. rewrite U1. split; [apply L|exact U3].
Qed.
Print Assumptions C32_history.

(** Several threads, calls one after the other, all in the same direction. *)
Theorem C32_one_direction cs s : (forall c, In c cs -> legal c /\ direction c = s) ->
  exists outs, run fft_init cs = Some outs /\ Forall2 correct cs outs.
Proof.
  intros H. set (agree' := fun g => forall id n st, cfg g id = Some (n, st) -> previous_sign g = s /\ state_of n s st).
  assert (K : forall cs g, (forall c, In c cs -> legal c /\ direction c = s) -> agree' g -> exists outs, run g cs = Some outs /\ Forall2 correct cs outs).
  { clear H cs. induction cs as [|c cs IH]; intros g H A; [exists []; split; [reflexivity|constructor]|].
    destruct (H c (or_introl eq_refl)) as [L D]. assert (Hs : s = 1 \/ s = -1) by (rewrite <- D; apply L).
    assert (G : exists g' out, cc1_fft g c = Some (g', out) /\ correct c out /\ agree' g').
    { unfold cc1_fft. destruct (prepare_ok g c L) as [[P E]|[(P & st & G & E)|(P & st & E & S)]]; rewrite E.
      - destruct (transform_ok g c 0 {| nfft := 0; inverse := false; factors := []; twiddles := fun _ => c0 |} L) as (g' & out & E' & Co & U & _); [congruence|]. rewrite (U P) in E'. exists g, out. split; [exact E'|]. split; [exact Co|]. first [exact A|split; [exact A|reflexivity]].
      - destruct (A (thread c) (length_ c) st G) as [A1 A2]. destruct (transform_ok g c (length_ c) st L) as (g' & out & E' & Co & _ & U); [rewrite A1; auto|]. destruct (U P) as (U1 & st' & U2 & U3).
        exists g', out. split; [exact E'|]. split; [exact Co|]. intros id n st0 G'. rewrite U1. split; [exact D|]. rewrite U2, upd_eq in G'. destruct (id =? thread c); [injection G' as <- <-; now rewrite <- D|]. now apply (A id n st0).
      - set (g1 := {| previous_sign := -1; cfg := _ |}). destruct (transform_ok g1 c (length_ c) st L) as (g' & out & E' & Co & _ & U); [intros _; cbn; rewrite upd_eq, Z.eqb_refl; auto|]. destruct (U P) as (U1 & st' & U2 & U3).
        exists g', out. split; [exact E'|]. split; [exact Co|]. intros id n st0 G'. rewrite U1. split; [exact D|]. rewrite U2 in G'. cbn [cfg g1] in G'. rewrite !upd_eq in G'. destruct (id =? thread c); [injection G' as <- <-; now rewrite <- D|]. now apply (A id n st0). }
    destruct G as (g' & out & E & Co & A'). destruct (IH g') as (outs & E' & F); [intros; apply H; now right|exact A'|]. exists (out :: outs). cbn [run]. rewrite E, E'. split; [reflexivity|]. now constructor. }
  apply K; [exact H|]. intros id n st E. discriminate E.
Qed.
Print Assumptions C32_one_direction.

(** Several threads at the same time: the steps of the calls interleave in any way that keeps the order of
    each thread.  If all calls are forward (sign -1) every output is correct. *)
Definition event_call (e : event) : call := match e with Prepare c => c | Transform c => c end.
Definition interleaving (programs : Z -> list call) (es : list event) : Prop :=
  forall t, filter (fun e => thread (event_call e) =? t) es = flat_map (fun c => [Prepare c; Transform c]) (programs t).
Theorem C32_parallel_forward programs es :
  interleaving programs es -> (forall t c, In c (programs t) -> legal c /\ direction c = -1) ->
  exists outs, run_events fft_init es = Some outs /\ (forall c, In (Transform c) es -> exists out, In (c, out) outs) /\ (forall c out, In (c, out) outs -> correct c out).
Proof.
  intros I H.
  set (agree' := fun g => forall id n st, cfg g id = Some (n, st) -> previous_sign g = -1 /\ state_of n (-1) st).
  (* a thread in the middle of a call *)
  set (rest := fun (g : fft_state) (ps : Z -> list call) (es : list event) => forall t,
    filter (fun e => thread (event_call e) =? t) es = flat_map (fun c => [Prepare c; Transform c]) (ps t) \/
    exists c, thread c = t /\ legal c /\ direction c = -1 /\ (prime_factor (length_ c) = false -> exists st, cfg g t = Some (length_ c, st)) /\
      filter (fun e => thread (event_call e) =? t) es = Transform c :: flat_map (fun c => [Prepare c; Transform c]) (ps t)).
  assert (K : forall es g ps, (forall t c, In c (ps t) -> legal c /\ direction c = -1) -> agree' g -> rest g ps es ->
    exists outs, run_events g es = Some outs /\ forall c out, In (c, out) outs -> correct c out).
  { clear - agree' rest. induction es as [|e es IH]; intros g ps H A Re; [exists []; split; [reflexivity|intros ? ? []]|].
    set (t := thread (event_call e)). destruct (Re t) as [E|(c & T & L & D & G & E)]; cbn [filter] in E; fold t in E; rewrite Z.eqb_refl in E.
    - destruct (ps t) as [|c cs] eqn:Ep; [discriminate E|]. cbn [flat_map app] in E. injection E as -> E. cbn [event_call] in *.
      destruct (H t c) as [L D]; [rewrite Ep; now left|].
      assert (Q : exists g', prepare g c = Some g' /\ agree' g' /\ (prime_factor (length_ c) = false -> exists st, cfg g' t = Some (length_ c, st)) /\ (forall t', t' <> t -> cfg g' t' = cfg g t')).
      { destruct (prepare_ok g c L) as [[P E']|[(P & st & G & E')|(P & st & E' & S)]]; (eexists; split; [exact E'|]).
        - split; [exact A|]. split; [congruence|reflexivity].
        - split; [exact A|]. split; [|reflexivity]. intros _. exists st. exact G.
        - split; [|split; [|intros t' N; cbn; rewrite upd_eq; fold t; destruct (Z.eqb_spec t' t); [contradiction|reflexivity]]].
          + intros id n st0 G. cbn in *. split; [reflexivity|]. rewrite upd_eq in G. destruct (id =? thread c); [injection G as <- <-; exact S|]. now apply (A id n st0).
          + intros _. exists st. cbn. rewrite upd_eq. fold t. now rewrite Z.eqb_refl. }
      destruct Q as (g' & E' & A' & G' & O). cbn [run_events]. rewrite E'.
      apply (IH g' (fun t' => if t' =? t then cs else ps t')); [|exact A'|].
      + intros t' c' I'. destruct (Z.eqb_spec t' t) as [-> |N]; [apply (H t); rewrite Ep; now right|now apply (H t')].
      + intros t'. destruct (Z.eqb_spec t' t) as [-> |N].
        * right. exists c. split; [reflexivity|]. split; [exact L|]. split; [exact D|]. split; [exact G'|exact E].
        * rewrite O by exact N. pose proof (Re t') as Re'. cbn [filter event_call] in Re'. fold t in Re'. destruct (Z.eqb_spec t t'); [congruence|exact Re'].
    - injection E as -> E. cbn [event_call] in *.
      assert (Q : exists g' out, transform g c = Some (g', out) /\ correct c out /\ agree' g' /\ (forall t', t' <> t -> cfg g' t' = cfg g t')).
      { destruct (prime_factor (length_ c)) eqn:P.
        - destruct (transform_ok g c 0 {| nfft := 0; inverse := false; factors := []; twiddles := fun _ => c0 |} L) as (g' & out & E' & Co & U & _); [congruence|]. rewrite (U P) in E'. exists g, out. split; [exact E'|]. split; [exact Co|]. first [exact A|split; [exact A|reflexivity]].
        - destruct (G eq_refl) as (st & G'). destruct (A t _ _ G') as [A1 A2]. destruct (transform_ok g c (length_ c) st L) as (g' & out & E' & Co & _ & U); [rewrite A1; auto|]. destruct (U P) as (U1 & st' & U2 & U3).
          exists g', out. split; [exact E'|]. split; [exact Co|]. rewrite D in *. split.
          + intros id n st0 G0. split; [exact U1|]. rewrite U2, upd_eq in G0. destruct (id =? thread c); [injection G0 as <- <-; exact U3|]. now apply (A id n st0).
          + intros t' N. rewrite U2, upd_eq. fold t. destruct (Z.eqb_spec t' t); [contradiction|reflexivity]. }
      destruct Q as (g' & out & E' & Co & A' & O). cbn [run_events]. rewrite E'.
      destruct (IH g' ps H A') as (outs & E'' & Cs).
      + intros t'. destruct (Z.eqb_spec t' t) as [-> |N]; [left; exact E|]. rewrite O by exact N. pose proof (Re t') as Re'. cbn [filter event_call] in Re'. fold t in Re'. destruct (Z.eqb_spec t t'); [congruence|exact Re'].
      + rewrite E''. exists ((c, out) :: outs). split; [reflexivity|]. intros c' out' [E0|I0]; [injection E0 as <- <-; exact Co|now apply Cs]. }
  destruct (K es fft_init programs H) as (outs & E & Co); [intros id n st E; discriminate E|intros t; left; apply I|].
  exists outs. split; [exact E|]. split; [exact (run_events_calls es fft_init outs E)|exact Co].
Qed.
Print Assumptions C32_parallel_forward.
(** *** two directions at the same time *)
Definition impulse : Z -> C := fun i => if i =? 1 then (1, 0)%R else (0, 0)%R.
Definition forward (t : Z) : call := {| thread := t; length_ := 8; direction := -1; values := impulse |}.
Definition backward (t : Z) : call := {| thread := t; length_ := 8; direction := 1; values := impulse |}.
Lemma impulse_dft s : s = 1 \/ s = -1 -> dft 8 s impulse 1 = root 8 s 1.
Proof.
  intros Hs. unfold dft. rewrite (total_single _ _ 1); [|cbn; lia|intros i Hi N; unfold impulse; destruct (Z.eqb_spec i 1); [contradiction|]; unfold times, c0; cbn [fst snd]; f_equal; ring].
  unfold impulse, times, root. cbn -[PI]. f_equal; ring.
Qed.
Lemma impulse_8 st sign prev : nfft st = 8 -> factors st = [(4, 2); (2, 1)] ->
  twiddles (fst (fst (kiss_fft st impulse 8 sign prev))) 0 = (1, 0)%R -> snd (kiss_fft st impulse 8 sign prev) 1 = twiddles (fst (fst (kiss_fft st impulse 8 sign prev))) 1.
Proof.
  destruct st as [nf iv fa tw]. cbn [nfft factors]. intros -> ->. unfold kiss_fft. cbn [twiddles fst snd nfft factors]. set (tw' := if prev =? sign then _ else _). clearbody tw'. intros H.
  destruct (sign =? 1); cbv -[Rplus Rmult Ropp Rminus Rinv IZR Rdiv] in H |- *; rewrite H; destruct (tw' 1%Z), (tw' 2), (tw' 3); f_equal; ring.
Qed.
Lemma kiss_state st x n s prev :
  let '(st', p', _) := kiss_fft st x n s prev in
  nfft st' = nfft st /\ factors st' = factors st /\ p' = s /\
  forall i, 0 <= i < n -> twiddles st' i = if prev =? s then twiddles st i else conj (twiddles st i).
Proof.
  unfold kiss_fft. cbn [nfft factors twiddles]. repeat (split; [reflexivity|]). intros i Hi. destruct (prev =? s); [reflexivity|].
  rewrite (fold_upd_hit (fun i => i) (fun i v => (fst v, snd v * -1)%R)); [|rewrite map_id; apply range_NoDup|apply in_range; lia]. unfold conj. f_equal. ring.
Qed.
Definition usable (st : kiss_fft_state) : Prop := nfft st = 8 /\ factors st = [(4, 2); (2, 1)].
Lemma alloc_8 : exists st, kiss_fft_alloc 8 = Some st /\ usable st /\ forall i, 0 <= i < 8 -> twiddles st i = root 8 (-1) i.
Proof.
  destruct (alloc_ok 8) as (st & E & _ & _ & T); [lia|]. exists st. split; [exact E|]. split; [|exact T]. clear T. unfold kiss_fft_alloc in E. replace (kf_factor 8) with (Some [(4, 2); (2, 1)]) in E by reflexivity. injection E as <-. split; reflexivity.
Qed.
(** the transform of the impulse in a state with the twiddle factors of one sign when previous_sign has
    another value than the state *)
Lemma wrong_sign st s prev : usable st -> s = 1 \/ s = -1 -> prev = 1 \/ prev = -1 -> (forall i, 0 <= i < 8 -> twiddles st i = root 8 (- prev) i) ->
  snd (kiss_fft st impulse 8 s prev) 1 <> dft 8 s impulse 1.
Proof.
  intros [U1 U2] Hs Hp T. rewrite impulse_dft by exact Hs. pose proof (kiss_state st impulse 8 s prev) as K. pose proof (impulse_8 st s prev U1 U2) as O.
  destruct (kiss_fft st impulse 8 s prev) as [[st' p'] out]. cbn [fst snd] in *. destruct K as (_ & _ & _ & K).
  assert (W : forall i, 0 <= i < 8 -> twiddles st' i = root 8 (- s) i).
  { intros i Hi. rewrite K, T by exact Hi. destruct (Z.eqb_spec prev s) as [-> |N]; [reflexivity|]. rewrite <- root_sign. f_equal. lia. }
  rewrite O by (rewrite W, root_0 by lia; reflexivity). rewrite W by lia. intros E. apply (f_equal snd) in E. unfold root in E. cbn [snd] in E. rewrite opp_IZR in E.
  assert (Q : (0 < sin (2 * PI * 1 / 8))%R). { replace (2 * PI * 1 / 8)%R with (PI / 4)%R by field. apply sin_gt_0; pose proof PI_RGT_0; lra. }
  destruct Hs as [-> | ->]; lra.
Qed.
Lemma prime_factor_8 : prime_factor 8 = false.
Proof. vm_compute. reflexivity. Qed.

Lemma prepare_fresh g c st : prime_factor (length_ c) = false -> cfg g (thread c) = None -> kiss_fft_alloc (length_ c) = Some st ->
  prepare g c = Some {| previous_sign := -1; cfg := upd (cfg g) (thread c) (Some (length_ c, st)) |}.
Proof. intros P G E. unfold prepare. now rewrite P, G, E. Qed.
Lemma prepare_same g c st : prime_factor (length_ c) = false -> cfg g (thread c) = Some (length_ c, st) -> prepare g c = Some g.
Proof. intros P G. unfold prepare. now rewrite P, G, Z.eqb_refl. Qed.
Lemma transform_kiss g c n st : prime_factor (length_ c) = false -> cfg g (thread c) = Some (n, st) ->
  transform g c = let r := kiss_fft st (values c) (length_ c) (direction c) (previous_sign g) in
    Some ({| previous_sign := direction c; cfg := upd (cfg g) (thread c) (Some (n, fst (fst r))) |}, snd r).
Proof.
  intros P G. unfold transform. rewrite P, G. cbv zeta. pose proof (kiss_state st (values c) (length_ c) (direction c) (previous_sign g)) as K.
  destruct (kiss_fft st (values c) (length_ c) (direction c) (previous_sign g)) as [[st' p'] out]. destruct K as (_ & _ & -> & _). reflexivity.
Qed.
Lemma kiss_state_8 st x s prev : usable st -> prev = 1 \/ prev = -1 -> s = 1 \/ s = -1 -> (forall i, 0 <= i < 8 -> twiddles st i = root 8 prev i) ->
  usable (fst (fst (kiss_fft st x 8 s prev))) /\ forall i, 0 <= i < 8 -> twiddles (fst (fst (kiss_fft st x 8 s prev))) i = root 8 s i.
Proof.
  intros [U1 U2] Hp Hs T. pose proof (kiss_state st x 8 s prev) as K. destruct (kiss_fft st x 8 s prev) as [[st' p'] out]. destruct K as (K1 & K2 & _ & K3). cbn [fst]. split; [split; congruence|].
  intros i Hi. rewrite K3, T by exact Hi. destruct (Z.eqb_spec prev s) as [-> |N]; [reflexivity|]. rewrite <- root_sign. f_equal. lia.
Qed.

(** Calls in both directions by two threads, one after the other: the third call is wrong. *)
Theorem C32_directions_refuted : exists o1 o2 o3, run fft_init [forward 0; backward 1; forward 0] = Some [o1; o2; o3] /\ ~ correct (forward 0) o3.
Proof.
  destruct alloc_8 as (st & E & U & T). destruct (kiss_state_8 st impulse (-1) (-1) U) as [U' T']; [auto|auto|exact T|].
  cbn [run]. unfold cc1_fft.
  rewrite (prepare_fresh fft_init (forward 0) st prime_factor_8 eq_refl E).
  erewrite transform_kiss; [|exact prime_factor_8|reflexivity]. cbv beta iota zeta.
  erewrite (prepare_fresh _ (backward 1)); [|exact prime_factor_8|reflexivity|exact E].
  erewrite transform_kiss; [|exact prime_factor_8|reflexivity]. cbv beta iota zeta.
  erewrite prepare_same; [|exact prime_factor_8|reflexivity].
  erewrite transform_kiss; [|exact prime_factor_8|reflexivity]. cbv beta iota zeta.
  do 3 eexists. split; [reflexivity|]. intros Co. exact (wrong_sign _ (-1) 1 U' ltac:(auto) ltac:(auto) T' (Co 1)).
Qed.
Print Assumptions C32_directions_refuted.

(** Two threads at the same time, all calls backward: the allocation by the second thread comes between the
    two calls of the first. *)
Theorem C32_parallel_backward_refuted :
  let es := [Prepare (backward 0); Transform (backward 0); Prepare (backward 1); Prepare (backward 0); Transform (backward 0); Transform (backward 1)] in
  interleaving (fun t => if t =? 0 then [backward 0; backward 0] else if t =? 1 then [backward 1] else []) es /\
  exists o1 o2 o3, run_events fft_init es = Some [(backward 0, o1); (backward 0, o2); (backward 1, o3)] /\ ~ correct (backward 0) o2.
Proof.
  cbv zeta. split.
  { intros t. cbn [filter event_call thread backward]. destruct (Z.eqb_spec t 0) as [-> |N0]; [reflexivity|]. destruct (Z.eqb_spec 0 t); [lia|]. destruct (Z.eqb_spec t 1) as [-> |N1]; [reflexivity|]. destruct (Z.eqb_spec 1 t); [lia|reflexivity]. }
  destruct alloc_8 as (st & E & U & T). destruct (kiss_state_8 st impulse 1 (-1) U) as [U' T']; [auto|auto|exact T|].
  cbn [run_events].
  rewrite (prepare_fresh fft_init (backward 0) st prime_factor_8 eq_refl E).
  erewrite transform_kiss; [|exact prime_factor_8|reflexivity]. cbv beta iota zeta.
  erewrite (prepare_fresh _ (backward 1)); [|exact prime_factor_8|reflexivity|exact E].
  erewrite prepare_same; [|exact prime_factor_8|reflexivity].
  erewrite (transform_kiss _ (backward 0)); [|exact prime_factor_8|reflexivity]. cbv beta iota zeta.
  erewrite (transform_kiss _ (backward 1)); [|exact prime_factor_8|reflexivity]. cbv beta iota zeta.
  do 3 eexists. split; [reflexivity|]. intros Co. exact (wrong_sign _ 1 (-1) U' ltac:(auto) ltac:(auto) T' (Co 1)).
Qed.
Print Assumptions C32_parallel_backward_refuted.
(** three calls by one thread, two directions and two lengths, one of them for the prime-factor transform *)
Example C32_nonvacuous : legal (forward 0) /\ legal (backward 0) /\ prime_factor 12 = true /\ prime_factor 17 = false /\
  interleaving (fun t => if t =? 0 then [forward 0] else if t =? 1 then [forward 1] else []) [Prepare (forward 0); Prepare (forward 1); Transform (forward 0); Transform (forward 1)].
Proof.
  unfold legal. cbn. repeat (split; [lia || (vm_compute; reflexivity)|]). intros t. cbn [filter event_call thread forward].
  destruct (Z.eqb_spec t 0) as [-> |N0]; [reflexivity|]. destruct (Z.eqb_spec 0 t); [lia|]. destruct (Z.eqb_spec t 1) as [-> |N1]; [reflexivity|]. destruct (Z.eqb_spec 1 t); [lia|reflexivity].
Qed.
