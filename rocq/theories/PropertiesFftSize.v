(** Lengths of the Fourier transforms (C29, C30). *)
From Coq Require Import ZArith List Lia Bool Sorted Relations.
From Verif Require Import FftSize.
Import ListNotations.
Local Open Scope Z_scope.

(** ** Specification *)
(** The lengths of the prime factor transform: products of mutually prime factors out of
    16, 13, 11, 9, 8, 7, 5, 4, 3, 2. *)
Definition supported (n : Z) : Prop :=
  exists a b c d e f, In a [1; 2; 4; 8; 16] /\ In b [1; 3; 9] /\ In c [1; 5] /\ In d [1; 7] /\ In e [1; 11] /\ In f [1; 13] /\ n = a * b * c * d * e * f.
(** the cost of a length, measured by the authors *)
Definition cost (n c : Z) : Prop := In (n, c) nctab.

(** ** C30 *)
Definition lt_entry (a b : Z * Z) : Prop := fst a < fst b.
Fixpoint sortedb (l : list (Z * Z)) : bool :=
  match l with a :: ((b :: _) as r) => (fst a <? fst b) && sortedb r | _ => true end.
Lemma sortedb_ok l : sortedb l = true -> StronglySorted lt_entry l.
Proof.
  intros H. apply Sorted_StronglySorted; [intros x y z; unfold lt_entry; lia|].
  induction l as [|a [|b l] IH]; [constructor|constructor; constructor|].
  cbn [sortedb] in H. apply andb_true_iff in H as [H1 H2]. apply Z.ltb_lt in H1. constructor; [now apply IH|constructor; exact H1].
Qed.
Lemma nctab_sorted : StronglySorted lt_entry nctab.
Proof. apply sortedb_ok. vm_compute. reflexivity. Qed.
Definition products : list Z :=
  flat_map (fun a => flat_map (fun b => flat_map (fun c => flat_map (fun d => flat_map (fun e => map (fun f => a * b * c * d * e * f) [1; 13]) [1; 11]) [1; 7]) [1; 5]) [1; 3; 9]) [1; 2; 4; 8; 16].
Lemma products_spec n : In n products <-> supported n.
Proof.
  unfold products, supported. split.
  - intros H. apply in_flat_map in H as (a & Ha & H). apply in_flat_map in H as (b & Hb & H). apply in_flat_map in H as (c & Hc & H).
    apply in_flat_map in H as (d & Hd & H). apply in_flat_map in H as (e & He & H). apply in_map_iff in H as (f & E & Hf). exists a, b, c, d, e, f. auto 10.
  - intros (a & b & c & d & e & f & Ha & Hb & Hc & Hd & He & Hf & ->).
    apply in_flat_map; exists a; split; [exact Ha|]. apply in_flat_map; exists b; split; [exact Hb|]. apply in_flat_map; exists c; split; [exact Hc|].
    apply in_flat_map; exists d; split; [exact Hd|]. apply in_flat_map; exists e; split; [exact He|]. apply in_map_iff. exists f. auto.
Qed.
Lemma supported_table n : supported n <-> In n (map fst nctab).
Proof.
  rewrite <- products_spec. split; intros H.
  - assert (A : forallb (fun x => existsb (Z.eqb x) (map fst nctab)) products = true) by (vm_compute; reflexivity).
    rewrite forallb_forall in A. apply A, existsb_exists in H as (y & Hy & E). apply Z.eqb_eq in E. now subst.
  - assert (A : forallb (fun x => existsb (Z.eqb x) products) (map fst nctab) = true) by (vm_compute; reflexivity).
    rewrite forallb_forall in A. apply A, existsb_exists in H as (y & Hy & E). apply Z.eqb_eq in E. now subst.
Qed.
Lemma supported_range n : supported n -> 1 <= n <= 720720.
Proof.
  intros H. apply products_spec in H. assert (A : forallb (fun x => (1 <=? x) && (x <=? 720720)) products = true) by (vm_compute; reflexivity).
  rewrite forallb_forall in A. apply A in H. lia.
Qed.
(** the search ends at the first sufficient entry, or at the last one *)
Lemma seek_spec nmin tab : tab <> [] -> StronglySorted lt_entry tab ->
  exists pre e rest, tab = pre ++ e :: rest /\ seek nmin tab = e :: rest /\ Forall (fun x => fst x < nmin) pre /\ (nmin <= fst e \/ rest = []).
Proof.
  induction tab as [|a [|b tab] IH]; [congruence| |]; intros _ S.
  - exists [], a, []. auto.
  - change (seek nmin (a :: b :: tab)) with (if fst a <? nmin then seek nmin (b :: tab) else a :: b :: tab). destruct (Z.ltb_spec (fst a) nmin) as [L|L].
    + destruct IH as (pre & e & rest & E1 & E2 & F & O); [congruence|now inversion S|].
      exists (a :: pre), e, rest. cbn [app]. rewrite <- E1. auto.
    + exists [], a, (b :: tab). auto.
Qed.
Lemma sorted_after (pre : list (Z * Z)) e rest : StronglySorted lt_entry (pre ++ e :: rest) -> Forall (fun x => fst e < fst x) rest.
Proof.
  induction pre as [|p pre IH]; cbn [app]; intros S; inversion S; subst; [exact H2|now apply IH].
Qed.
Lemma npfa_table nmin : exists pre e rest, nctab = pre ++ e :: rest /\ seek nmin nctab = e :: rest /\ Forall (fun x => fst x < nmin) pre /\ Forall (fun x => fst e < fst x) rest /\ (nmin <= fst e \/ rest = []).
Proof.
  destruct (seek_spec nmin nctab) as (pre & e & rest & E & E' & F & O); [discriminate|apply nctab_sorted|].
  exists pre, e, rest. pose proof nctab_sorted as S. rewrite E in S. apply sorted_after in S. auto 6.
Qed.
Lemma last_entry pre e : nctab = pre ++ [e] -> e = (720720, 7500000).
Proof. intros E. change e with (last [e] (0, 0)). assert (L : last nctab (0, 0) = (720720, 7500000)) by (vm_compute; reflexivity). rewrite <- L, E. symmetry. apply last_last. Qed.

(** The result is the smallest supported length that is large enough. *)
Theorem C30_smallest nmin : nmin <= 720720 -> supported (npfa nmin) /\ nmin <= npfa nmin /\ (forall s, supported s -> nmin <= s -> npfa nmin <= s).
Proof.
  intros H. destruct (npfa_table nmin) as (pre & e & rest & E & E' & F & A & O). unfold npfa. rewrite E'. cbn [hd].
  split; [|split].
  - apply supported_table. rewrite E, map_app. apply in_or_app. right. now left.
  - destruct O as [O | ->]; [exact O|]. apply last_entry in E. subst e. exact H.
  - intros s S Hs. apply supported_table in S. rewrite E, map_app in S. apply in_app_or in S as [S|[S|S]]; [|subst; reflexivity|].
    + apply in_map_iff in S as (x & <- & Hx). rewrite Forall_forall in F. specialize (F x Hx). lia.
    + apply in_map_iff in S as (x & <- & Hx). rewrite Forall_forall in A. specialize (A x Hx). lia.
Qed.
Print Assumptions C30_smallest.
(** the same for real transforms *)
Theorem C30_smallest_real nmin : 0 <= nmin <= 1441440 ->
  (exists h, supported h /\ npfar nmin = 2 * h) /\ nmin <= npfar nmin /\ (forall h, supported h -> nmin <= 2 * h -> npfar nmin <= 2 * h).
Proof.
  intros H. unfold npfar. rewrite Z.quot_div_nonneg by lia. pose proof (Z.div_mod (nmin + 1) 2 ltac:(lia)) as D. pose proof (Z.mod_pos_bound (nmin + 1) 2 ltac:(lia)) as M.
  destruct (C30_smallest ((nmin + 1) / 2) ltac:(lia)) as (S & L & Mi). split; [|split].
  - now exists (npfa ((nmin + 1) / 2)).
  - lia.
  - intros h Sh Hh. specialize (Mi h Sh). lia.
Qed.
Print Assumptions C30_smallest_real.
(** The cheapest one: among the supported lengths from nmin to nmax. *)
Lemma cheapest_spec nmax rest : forall best, let r := cheapest nmax best rest in
  (r = best \/ In r rest /\ fst r <= nmax) /\ snd r <= snd best /\
  (StronglySorted lt_entry rest -> forall x, In x (removelast rest) -> fst x <= nmax -> snd r <= snd x).
Proof.
  induction rest as [|a [|b rest] IH]; intros best.
  - cbn. split; [auto|]. split; [lia|tauto].
  - cbn. split; [auto|]. split; [lia|tauto].
  - change (cheapest nmax best (a :: b :: rest)) with (if fst a <=? nmax then cheapest nmax (if snd a <? snd best then a else best) (b :: rest) else best).
    destruct (Z.leb_spec (fst a) nmax) as [L|L].
    + specialize (IH (if snd a <? snd best then a else best)). cbv zeta in IH. destruct IH as (O & C & Ms). split; [|split].
      * destruct O as [O|[O O']]; [|right; split; [right; exact O|exact O']]. destruct (Z.ltb_spec (snd a) (snd best)); [right; split; [left; now rewrite O|now rewrite O]|now left].
      * destruct (Z.ltb_spec (snd a) (snd best)); lia.
      * intros S x Hx Hn. change (removelast (a :: b :: rest)) with (a :: removelast (b :: rest)) in Hx. destruct Hx as [<- |Hx].
        -- destruct (Z.ltb_spec (snd a) (snd best)); lia.
        -- apply Ms; [now inversion S|exact Hx|exact Hn].
    + cbv zeta. split; [auto|]. split; [lia|]. intros S x Hx Hn. exfalso.
      assert (In x (a :: b :: rest)). { rewrite (app_removelast_last (0, 0)) by congruence. apply in_or_app. now left. }
      destruct H as [<- |H]; [lia|]. apply StronglySorted_inv in S as [_ S]. rewrite Forall_forall in S. specialize (S x H). unfold lt_entry in S. lia.
Qed.
Lemma nctab_costs : forall e, In e nctab -> snd e <= 7500000.
Proof.
  intros e He. assert (A : forallb (fun x => snd x <=? 7500000) nctab = true) by (vm_compute; reflexivity). rewrite forallb_forall in A. apply A in He. lia.
Qed.
Theorem C30_cheapest nmin nmax : nmin <= 720720 ->
  let r := npfao nmin nmax in
  supported r /\ nmin <= r /\ (r <= nmax \/ r = npfa nmin) /\
  (forall s c, cost s c -> nmin <= s <= nmax -> exists c', cost r c' /\ c' <= c).
Proof.
  intros H r. destruct (npfa_table nmin) as (pre & e & rest & E & E' & F & A & O).
  assert (R : r = fst (cheapest nmax e rest)) by (unfold r, npfao; now rewrite E'). assert (N : npfa nmin = fst e) by (unfold npfa; now rewrite E').
  destruct (C30_smallest nmin H) as (S1 & L1 & M1). rewrite N in *.
  destruct (cheapest_spec nmax rest e) as (O2 & C2 & Ms). set (b := cheapest nmax e rest) in *.
  assert (I : In b nctab). { rewrite E. apply in_or_app. right. destruct O2 as [-> |[O2 _]]; [now left|now right]. }
  rewrite R. split; [|split; [|split]].
  - apply supported_table. now apply in_map.
  - destruct O2 as [-> |[O2 _]]; [exact L1|]. rewrite Forall_forall in A. specialize (A b O2). lia.
  - destruct O2 as [-> |[_ O2]]; auto.
  - intros s c Hc Hs. exists (snd b). split; [unfold cost; rewrite <- surjective_pairing; exact I|].
    unfold cost in Hc. pose proof Hc as Hc0. rewrite E in Hc. apply in_app_or in Hc as [Hc|[Hc|Hc]].
    + rewrite Forall_forall in F. specialize (F _ Hc). cbn in F. lia.
    + subst e. cbn in C2. exact C2.
    + assert (SR : StronglySorted lt_entry rest).
      { pose proof nctab_sorted as S. rewrite E in S. clear -S. induction pre; cbn in S; inversion S; subst; auto. }
      assert (rest <> []) by (intros ->; contradiction).
      pose proof (app_removelast_last (0, 0) H0) as D. rewrite D in Hc. apply in_app_or in Hc as [Hc|[Hc|[]]].
      * specialize (Ms SR _ Hc). cbn in Ms. apply Ms. lia.
      * (* the last entry is the most expensive *)
        assert (L : last nctab (0, 0) = (720720, 7500000)) by (vm_compute; reflexivity).
        rewrite E, D in L. replace (pre ++ e :: removelast rest ++ [last rest (0, 0)]) with ((pre ++ e :: removelast rest) ++ [last rest (0, 0)]) in L by (rewrite <- app_assoc; reflexivity).
        rewrite last_last, Hc in L. injection L as -> ->. now apply nctab_costs.
Qed.
Print Assumptions C30_cheapest.
Theorem C30_cheapest_real nmin nmax : 0 <= nmin <= 1441440 -> 0 <= nmax ->
  let r := npfaro nmin nmax in
  (exists h, supported h /\ r = 2 * h) /\ nmin <= r /\ (r <= nmax + 1 \/ r = npfar nmin) /\
  (forall h c, cost h c -> nmin <= 2 * h <= nmax -> exists h' c', r = 2 * h' /\ cost h' c' /\ c' <= c).
Proof.
  intros H Hm r. unfold r, npfaro, npfar. rewrite !Z.quot_div_nonneg by lia.
  pose proof (Z.div_mod (nmin + 1) 2 ltac:(lia)) as D. pose proof (Z.mod_pos_bound (nmin + 1) 2 ltac:(lia)) as M.
  pose proof (Z.div_mod (nmax + 1) 2 ltac:(lia)) as D'. pose proof (Z.mod_pos_bound (nmax + 1) 2 ltac:(lia)) as M'.
  destruct (C30_cheapest ((nmin + 1) / 2) ((nmax + 1) / 2) ltac:(lia)) as (S & L & O & C). split; [|split; [|split]].
  - eexists; split; [exact S|reflexivity].
  - lia.
  - destruct O as [O|O]; [left; lia|right; now rewrite O].
  - intros h c Hc Hh. destruct (C h c Hc ltac:(lia)) as (c' & Hc' & Le). eauto.
Qed.
Print Assumptions C30_cheapest_real.
(** beyond the table the result is too small *)
Theorem C30_limit_refuted nmin : 720720 < nmin -> npfa nmin = 720720 /\ npfa nmin < nmin.
Proof.
  intros H. destruct (npfa_table nmin) as (pre & e & rest & E & E' & F & A & O).
  assert (fst e <= 720720). { apply supported_range. apply supported_table. rewrite E, map_app. apply in_or_app. right. now left. }
  destruct O as [O | ->]; [lia|]. unfold npfa. rewrite E'. apply last_entry in E. subst e. cbn. lia.
Qed.
Print Assumptions C30_limit_refuted.
Example C30_nonvacuous : npfa 17 = 18 /\ npfa 19 = 20 /\ npfa 1001 = 1001 /\ npfar 35 = 36 /\ npfao 100 120 = 105 /\ npfaro 200 240 = 210.
Proof. vm_compute. auto 10. Qed.

(** ** C29 *)
(** The power of two that is tried first, for any precision D in place of 10000. *)
Lemma guess_range D n : 1 <= D -> 1 <= n -> let e := Z.log2 (n ^ D * 2 ^ (D - 1)) / D in
  0 <= e /\ 2 ^ (D * e) <= n ^ D * 2 ^ (D - 1) < 2 ^ (D * (e + 1)).
Proof.
  intros HD Hn e. assert (P : 0 < n ^ D * 2 ^ (D - 1)) by (apply Z.mul_pos_pos; apply Z.pow_pos_nonneg; lia).
  pose proof (Z.log2_spec _ P) as L. set (g := Z.log2 (n ^ D * 2 ^ (D - 1))) in *. assert (0 <= g) by apply Z.log2_nonneg.
  assert (He : e = g / D) by reflexivity. pose proof (Z.div_mod g D ltac:(lia)) as DM. pose proof (Z.mod_pos_bound g D ltac:(lia)) as MB. rewrite <- He in DM.
  assert (0 <= e) by (rewrite He; apply Z.div_pos; lia). split; [assumption|]. split.
  - apply Z.le_trans with (2 ^ g); [apply Z.pow_le_mono_r; nia|lia].
  - apply Z.lt_le_trans with (2 ^ Z.succ g); [lia|]. apply Z.pow_le_mono_r; nia.
Qed.
Lemma guess_unique D n e : 1 <= D -> 1 <= n -> 0 <= e -> 2 ^ (D * e) <= n ^ D * 2 ^ (D - 1) < 2 ^ (D * (e + 1)) -> Z.log2 (n ^ D * 2 ^ (D - 1)) / D = e.
Proof.
  intros HD Hn He [H1 H2]. destruct (guess_range D n HD Hn) as (G0 & G1 & G2). set (g := Z.log2 _ / D) in *.
  assert (A : 2 ^ (D * e) < 2 ^ (D * (g + 1))) by lia. assert (B : 2 ^ (D * g) < 2 ^ (D * (e + 1))) by lia.
  apply Z.pow_lt_mono_r_iff in A; [|lia|nia]. apply Z.pow_lt_mono_r_iff in B; [|lia|nia]. nia.
Qed.
(** n lies just above the power of two 2^k: log2 n < k + 1/D *)
Definition just_above (D n k : Z) : Prop := 0 <= k /\ 2 ^ k < n /\ n ^ D < 2 ^ (D * k + 1).
Lemma guess_small D n : 2 <= D -> 1 <= n -> let e := Z.log2 (n ^ D * 2 ^ (D - 1)) / D in 2 ^ e < n <-> exists k, just_above D n k.
Proof.
  intros HD Hn e. destruct (guess_range D n ltac:(lia) Hn) as (G0 & G1 & G2). fold e in G0, G1, G2. split.
  - intros L. exists e. split; [exact G0|]. split; [exact L|].
    replace (D * (e + 1)) with (D * e + 1 + (D - 1)) in G2 by lia. rewrite (Z.pow_add_r 2 (D * e + 1)) in G2 by nia.
    apply Z.mul_lt_mono_pos_r in G2; [exact G2|apply Z.pow_pos_nonneg; lia].
  - intros (k & K0 & K1 & K2). replace e with k; [exact K1|]. symmetry. apply guess_unique; [lia|exact Hn|exact K0|]. split.
    + apply Z.le_trans with (n ^ D * 1); [|apply Z.mul_le_mono_nonneg_l; [apply Z.pow_nonneg; lia|apply (Z.pow_le_mono_r 2 0); lia]].
      rewrite Z.mul_1_r, Z.mul_comm, Z.pow_mul_r by lia. apply Z.pow_le_mono_l. split; [apply Z.pow_nonneg; lia|lia].
    + replace (D * (k + 1)) with (D * k + 1 + (D - 1)) by lia. rewrite (Z.pow_add_r 2 (D * k + 1)) by nia. apply Z.mul_lt_mono_pos_r; [apply Z.pow_pos_nonneg; lia|exact K2].
Qed.
Lemma guess_eq n : guess n = Z.log2 (n ^ 10000 * 2 ^ (10000 - 1)) / 10000.
Proof. reflexivity. Qed.
(** The complex length is large enough exactly if n is not just above a power of two. *)
Theorem C29_complex n : 1 <= n <= 720720 -> (n <= optncc n <-> ~ exists k, just_above 10000 n k).
Proof.
  intros Hn. rewrite <- (guess_small 10000 n) by lia. cbv zeta. rewrite <- guess_eq. unfold optncc. cbv zeta.
  destruct (C30_smallest n ltac:(lia)) as (_ & L & _). set (g := guess n). clearbody g.
  destruct (Z.eqb_spec (2 ^ g) n); [lia|]. destruct (Z.ltb_spec (npfa n - n) (2 ^ g - n)); lia.
Qed.
Print Assumptions C29_complex.
Theorem C29_real n : 1 <= n <= 1441440 -> (n <= optncr n <-> ~ exists k, just_above 10000 n k).
Proof.
  intros Hn. rewrite <- (guess_small 10000 n) by lia. cbv zeta. rewrite <- guess_eq. unfold optncr. cbv zeta.
  destruct (C30_smallest_real n ltac:(lia)) as (_ & L & _). set (g := guess n). clearbody g.
  destruct (Z.eqb_spec (2 ^ g) n); [lia|]. destruct (Z.ltb_spec (npfar n - n) (2 ^ g - n)); lia.
Qed.
Print Assumptions C29_real.
(** The suggested length is a supported one or a power of two. *)
Theorem C29_usable n : 1 <= n <= 720720 -> (supported (optncc n) \/ exists k, optncc n = 2 ^ k) /\ ((exists h, supported h /\ optncr n = 2 * h) \/ exists k, optncr n = 2 ^ k).
Proof.
  intros Hn. unfold optncc, optncr. cbv zeta. set (g := guess n). clearbody g.
  destruct (C30_smallest n ltac:(lia)) as (S & _). destruct (C30_smallest_real n ltac:(lia)) as (S' & _).
  destruct (Z.eqb_spec (2 ^ g) n) as [E|E]; [split; right; exists g; now symmetry|].
  split; [destruct (_ <? _); [now left|right; now exists g]|destruct (_ <? _); [now left|right; now exists g]].
Qed.
Print Assumptions C29_usable.

Lemma bernoulli a M : 0 <= a -> 0 <= M -> a ^ Z.succ M + Z.succ M * a ^ M <= (a + 1) ^ Z.succ M.
Proof.
  intros Ha HM. revert M HM. apply natlike_ind; [cbn; lia|]. intros M HM IH.
  rewrite (Z.pow_succ_r (a + 1)) by lia. rewrite (Z.pow_succ_r a (Z.succ M)) by lia. apply Z.le_trans with ((a + 1) * (a ^ Z.succ M + Z.succ M * a ^ M)); [|apply Z.mul_le_mono_nonneg_l; lia].
  rewrite !(Z.pow_succ_r a M) by lia. pose proof (Z.pow_nonneg a M Ha). nia.
Qed.
(** No number up to 16384 is just above a power of two. *)
Lemma not_just_above D n k : D = 10000 -> n <= 16384 -> ~ just_above D n k.
Proof.
  intros HD Hn (K0 & K1 & K2). assert (K : k < 14). { apply (Z.pow_lt_mono_r_iff 2); [lia|lia|]. change (2 ^ 14) with 16384. lia. }
  set (a := 2 ^ k) in *. assert (Ha : 0 < a) by (apply Z.pow_pos_nonneg; lia).
  assert (B : (a + 1) ^ D <= n ^ D) by (apply Z.pow_le_mono_l; lia).
  assert (Be : a ^ D + D * a ^ (D - 1) <= (a + 1) ^ D). { pose proof (bernoulli a (D - 1) ltac:(lia) ltac:(lia)) as Be. now replace (Z.succ (D - 1)) with D in Be by lia. }
  assert (E : 2 ^ (D * k + 1) = 2 * a ^ D). { rewrite Z.pow_add_r by lia. rewrite Z.mul_comm, (Z.mul_comm D), Z.pow_mul_r by lia. reflexivity. }
  rewrite E in K2. assert (E2 : a ^ D = a * a ^ (D - 1)) by (replace D with (Z.succ (D - 1)) at 1 by lia; apply Z.pow_succ_r; lia).
  assert (a <= 8192) by (change 8192 with (2 ^ 13); apply Z.pow_le_mono_r; lia).
  assert (P : 0 < a ^ (D - 1)) by (apply Z.pow_pos_nonneg; lia). set (x := a ^ D) in *. set (y := a ^ (D - 1)) in *. set (z := n ^ D) in *. set (w := (a + 1) ^ D) in *. clearbody x y z w. clear - K2 B Be E2 P H HD. nia.
Qed.
Theorem C29_small n : 1 <= n <= 16384 -> n <= optncc n /\ n <= optncr n.
Proof.
  intros Hn. split; [apply C29_complex; [lia|]|apply C29_real; [lia|]]; intros (k & K); revert K; (apply not_just_above; [reflexivity|apply Hn]).
Qed.
Print Assumptions C29_small.
(** 16385 samples do not fit in the suggested length. *)
Lemma power_bound a q s q' s' N : 0 <= a -> 0 <= N -> 0 <= s -> 0 <= s' -> 0 <= q -> a <= q * 2 ^ s -> q ^ N <= q' * 2 ^ s' -> a ^ N <= q' * 2 ^ (s * N + s').
Proof.
  intros Ha HN Hs Hs' Hq H1 H2. apply Z.le_trans with ((q * 2 ^ s) ^ N); [apply Z.pow_le_mono_l; lia|].
  rewrite Z.pow_mul_l, <- Z.pow_mul_r by lia. rewrite Z.pow_add_r by nia. pose proof (Z.pow_nonneg 2 (s * N) ltac:(lia)). nia.
Qed.
Lemma power_bound4 a : 0 <= a -> a ^ 10 <= 4297589457 * 2 ^ 108 -> (((a ^ 10) ^ 10) ^ 10) ^ 10 <= 7907226648 * 2 ^ (((108 * 10 + 288) * 10 + 288) * 10 + 288).
Proof.
  intros Ha H. assert (A1 : 0 <= a ^ 10) by (apply Z.pow_nonneg; exact Ha). revert H A1. generalize (a ^ 10). clear a Ha. intros a H Ha.
  apply (power_bound _ 4565268172); [now apply Z.pow_nonneg, Z.pow_nonneg|discriminate|discriminate|discriminate|discriminate| |vm_compute; discriminate].
  apply (power_bound _ 4321261064); [now apply Z.pow_nonneg|discriminate|discriminate|discriminate|discriminate| |vm_compute; discriminate].
  apply (power_bound _ 4297589457); [exact Ha|discriminate|discriminate|discriminate|discriminate|exact H|vm_compute; discriminate].
Qed.
Lemma above_16384 D : D = 10000 -> just_above D 16385 14.
Proof.
  intros HD. split; [lia|]. split; [reflexivity|].
  assert (E : 16385 ^ D = (((16385 ^ 10) ^ 10) ^ 10) ^ 10). { rewrite <- !Z.pow_mul_r by discriminate. f_equal. exact HD. }
  rewrite E. pose proof (power_bound4 16385 ltac:(discriminate) ltac:(vm_compute; discriminate)) as B. generalize dependent ((((16385 ^ 10) ^ 10) ^ 10) ^ 10). intros z _ B.
  eapply Z.le_lt_trans; [exact B|]. replace (D * 14 + 1) with (33 + (((108 * 10 + 288) * 10 + 288) * 10 + 288)) by (rewrite HD; reflexivity).
  rewrite (Z.pow_add_r 2 33) by discriminate. apply Z.mul_lt_mono_pos_r; [apply Z.pow_pos_nonneg; [reflexivity|discriminate]|reflexivity].
Qed.
Theorem C29_refuted : just_above 10000 16385 14 /\ optncc 16385 < 16385 /\ optncr 16385 < 16385.
Proof.
  pose proof (above_16384 10000 eq_refl) as J.
  split; [exact J|]. split.
  - destruct (Z.lt_ge_cases (optncc 16385) 16385) as [L|L]; [exact L|]. apply C29_complex in L; [|lia]. exfalso. apply L. now exists 14.
  - destruct (Z.lt_ge_cases (optncr 16385) 16385) as [L|L]; [exact L|]. apply C29_real in L; [|lia]. exfalso. apply L. now exists 14.
Qed.
Print Assumptions C29_refuted.
Lemma large_guess D n : D = 10000 -> 720720 < n -> 720720 < 2 ^ (Z.log2 (n ^ D * 2 ^ (D - 1)) / D).
Proof.
  intros HD Hn. destruct (guess_range D n ltac:(lia) ltac:(lia)) as (G0 & _ & G2). set (g := Z.log2 _ / D) in *. clearbody g.
  destruct (Z.lt_ge_cases 19 g) as [L|L]; [apply Z.lt_le_trans with (2 ^ 20); [reflexivity|apply Z.pow_le_mono_r; lia]|]. exfalso.
  replace (D * (g + 1)) with (D * g + 1 + (D - 1)) in G2 by lia. rewrite (Z.pow_add_r 2 (D * g + 1)) in G2 by lia.
  apply Z.mul_lt_mono_pos_r in G2; [|apply Z.pow_pos_nonneg; lia].
  assert (A : (5 * 2 ^ 17) ^ D <= n ^ D) by (apply Z.pow_le_mono_l; split; [lia|]; change (5 * 2 ^ 17) with 655360; lia).
  rewrite Z.pow_mul_l, <- Z.pow_mul_r in A by lia.
  assert (B : 2 ^ (D * g + 1) <= 2 ^ (D * 2 + 1 + 17 * D)) by (apply Z.pow_le_mono_r; lia).
  rewrite (Z.pow_add_r 2 (D * 2 + 1)) in B by lia. rewrite (Z.pow_add_r 2 (D * 2)), (Z.mul_comm D 2), (Z.pow_mul_r 2 2 D) in B by lia.
  assert (Be : 4 ^ D + D * 4 ^ (D - 1) <= 5 ^ D). { pose proof (bernoulli 4 (D - 1) ltac:(lia) ltac:(lia)) as Be. now replace (Z.succ (D - 1)) with D in Be by lia. }
  change (2 ^ 2) with 4 in B. change (2 ^ 1) with 2 in B.
  assert (E2 : 4 ^ D = 4 * 4 ^ (D - 1)) by (replace D with (Z.succ (D - 1)) at 1 by lia; apply Z.pow_succ_r; lia).
  assert (P : 0 < 4 ^ (D - 1)) by (apply Z.pow_pos_nonneg; lia). assert (P' : 0 < 2 ^ (17 * D)) by (apply Z.pow_pos_nonneg; lia).
  set (x := 4 ^ D) in *. set (y := 4 ^ (D - 1)) in *. set (z := n ^ D) in *. set (w := 5 ^ D) in *. set (v := 2 ^ (17 * D)) in *. set (u := 2 ^ (D * g + 1)) in *. clearbody x y z w v u. clear - HD G2 A B Be E2 P P'.
  assert (w < 2 * x) by (apply (Z.mul_lt_mono_pos_r v); nia). nia.
Qed.
(** Above the table the suggested length is 720720, unless the number of samples is a power of two. *)
Theorem C29_large_refuted n : 720720 < n -> (forall k, n <> 2 ^ k) -> optncc n = 720720 /\ optncc n < n.
Proof.
  intros Hn Hp. destruct (C30_limit_refuted n Hn) as [E _]. unfold optncc. cbv zeta. rewrite E.
  pose proof (large_guess 10000 n eq_refl Hn) as L. rewrite <- guess_eq in L. set (g := guess n) in *. clearbody g.
  destruct (Z.eqb_spec (2 ^ g) n) as [C|C]; [exfalso; apply (Hp g); lia|]. rewrite (proj2 (Z.ltb_lt _ _)) by lia. lia.
Qed.
Print Assumptions C29_large_refuted.
Example C29_nonvacuous : (forall k, 1000000 <> 2 ^ k) /\ 720720 < 1000000.
Proof.
  split; [|lia]. intros k H. destruct (Z.lt_ge_cases k 0); [rewrite Z.pow_neg_r in H; lia|]. destruct (Z.lt_ge_cases 19 k).
  - assert (2 ^ 20 <= 2 ^ k) by (apply Z.pow_le_mono_r; lia). rewrite <- H in *. change (2 ^ 20) with 1048576 in *. lia.
  - assert (2 ^ k <= 2 ^ 19) by (apply Z.pow_le_mono_r; lia). rewrite <- H in *. change (2 ^ 19) with 524288 in *. lia.
Qed.
