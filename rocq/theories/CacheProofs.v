(** The compressed arrays simulate their specification. *)
From Coq Require Import ZArith List Bool Arith Lia ZifyNat.
From Verif Require Import ListAux Bits Bitstream BitstreamProofs BitstreamProofs2 StreamSpec StreamRuns.
From Verif Require Import EmbedSpec ZfpCodec ZfpCodecProofs EmbedRuns ZfpXform ZfpArray ZfpApi ZfpCache ArraySpec CacheSpec CacheHistory.
From Verif Require Import ArrayProofs ArrayProofs2 ArrayProofs3 ArrayProofs4 PropertiesZfpArray CacheGeom CacheGeom2 CacheStore CacheTags.
Import ListNotations.
Local Open Scope Z_scope.
Notation sizes := ZfpCache.sizes.
Notation stored := CacheSpec.stored.

(** ** Lists of options *)
Lemma all_some_map {A B} (f : A -> option B) (g : A -> B) l : (forall x, In x l -> f x = Some (g x)) -> all_some (map f l) = Some (map g l).
Proof. induction l as [|x l IH]; intros H; cbn; [reflexivity|]. rewrite H by (left; reflexivity). rewrite IH by (intros y Y; apply H; right; exact Y). reflexivity. Qed.
Lemma all_some_ext {A} (l k : list (option A)) : l = k -> all_some l = all_some k.
Proof. congruence. Qed.

(** ** Compressing blocks *)
Section Compress.
Variable rt : list Z -> option (option (list Z)).
Notation rounded := (CacheSpec.rounded rt).
Notation compress_blocks := (CacheSpec.compress_blocks rt).

(** equal as far as the array goes *)
Definition ceq (x y : contents) : Prop :=
  csize x = csize y /\ (forall cs, inside cs (csize x) -> current x cs = current y cs /\ saved x cs = saved y cs) /\
  (forall b, (b < blocks_in (csize x))%nat -> changed x b = changed y b).
Lemma ceq_refl x : ceq x x.
Proof. split; [reflexivity|]. split; auto. Qed.

Lemma rounded_ext x y b : positive (csize x) -> csize x = csize y -> (b < blocks_in (csize x))%nat ->
  (forall cs, inside cs (csize x) -> block_of (csize x) cs = b -> current x cs = current y cs) -> rounded x b = rounded y b.
Proof.
  intros HP E Hb H. unfold CacheSpec.rounded, padded_block. rewrite <- E.
  replace (map (fun i => current y (cell (csize x) b i)) (seq 0 (4 ^ length (csize x)))) with (map (fun i => current x (cell (csize x) b i)) (seq 0 (4 ^ length (csize x)))); [reflexivity|].
  apply map_ext. intros i. destruct (cell_member (csize x) b i HP Hb) as [A B]. apply H; assumption.
Qed.

Definition result_of (S : nat -> bool) (q : nat -> option (list Z)) (c c' : contents) : Prop :=
  csize c' = csize c /\
  (forall cs, inside cs (csize c) -> let b := block_of (csize c) cs in
     current c' cs = (if S b then pick (q b) (place_of cs) else current c cs) /\
     saved c' cs = (if S b then pick (q b) (place_of cs) else saved c cs)) /\
  (forall b, changed c' b = changed c b && negb (S b)).

Lemma compress_some S q c : (forall b, (b < blocks_in (csize c))%nat -> S b = true -> rounded c b = Some (q b)) ->
  exists c', compress_blocks S c = Some c' /\ result_of S q c c'.
Proof.
  intros H. unfold CacheSpec.compress_blocks.
  assert (E : forallb (fun b => negb (S b) || match rounded c b with Some _ => true | None => false end) (seq 0 (blocks_in (csize c))) = true).
  { apply forallb_forall. intros b Hb. apply in_seq in Hb. destruct (S b) eqn:SB; [|reflexivity]. rewrite (H b) by (auto; lia). reflexivity. }
  rewrite E. eexists. split; [reflexivity|]. split; [reflexivity|]. split; [|reflexivity].
  intros cs Hc. cbn zeta. cbn [current saved]. destruct (S (block_of (csize c) cs)) eqn:SB; [|auto].
  rewrite (H _ (block_of_lt _ _ Hc) SB). auto.
Qed.
Lemma compress_none S c b : (b < blocks_in (csize c))%nat -> S b = true -> rounded c b = None -> compress_blocks S c = None.
Proof.
  intros Hb SB E. unfold CacheSpec.compress_blocks.
  destruct (forallb _ _) eqn:F; [|reflexivity]. rewrite forallb_forall in F. specialize (F b ltac:(apply in_seq; lia)). rewrite SB, E in F. discriminate.
Qed.
(** the two cases *)
Lemma compress_cases S c : (exists b, (b < blocks_in (csize c))%nat /\ S b = true /\ rounded c b = None) \/
  (forall b, (b < blocks_in (csize c))%nat -> S b = true -> exists q, rounded c b = Some q).
Proof.
  destruct (forallb (fun b => negb (S b) || match rounded c b with Some _ => true | None => false end) (seq 0 (blocks_in (csize c)))) eqn:F.
  - right. rewrite forallb_forall in F. intros b Hb SB. specialize (F b ltac:(apply in_seq; lia)). rewrite SB in F. destruct (rounded c b) as [q|]; [eauto|discriminate].
  - left. assert (G : ~ Forall (fun b => negb (S b) || match rounded c b with Some _ => true | None => false end = true) (seq 0 (blocks_in (csize c)))).
    { intros X. rewrite Forall_forall in X. assert (forallb (fun b => negb (S b) || match rounded c b with Some _ => true | None => false end) (seq 0 (blocks_in (csize c))) = true) by (apply forallb_forall; exact X). congruence. }
    apply neg_Forall_Exists_neg in G; [|intros x; apply bool_dec]. apply Exists_exists in G as (b & I & N). apply in_seq in I. exists b. split; [lia|].
    destruct (S b); [|elim N; reflexivity]. split; [reflexivity|]. destruct (rounded c b); [elim N; reflexivity|reflexivity].
Qed.

(** compressing one changed block first makes no difference *)
Lemma compress_step c e : positive (csize c) -> (e < blocks_in (csize c))%nat -> changed c e = true ->
  match compress_blocks (Nat.eqb e) c with
  | None => compress_blocks (changed c) c = None
  | Some c1 => match compress_blocks (changed c1) c1, compress_blocks (changed c) c with
               | Some x, Some y => ceq x y
               | None, None => True
               | _, _ => False
               end
  end.
Proof.
  intros HP He HC. destruct (rounded c e) as [q|] eqn:RE.
  - destruct (compress_some (Nat.eqb e) (fun _ => q) c) as (c1 & E1 & R1 & R2 & R3).
    { intros b _ EB. apply Nat.eqb_eq in EB. subst b. exact RE. }
    rewrite E1. assert (RB : forall b, (b < blocks_in (csize c))%nat -> b <> e -> rounded c1 b = rounded c b).
    { intros b Hb N. symmetry. apply rounded_ext; auto. intros cs Hc EB. destruct (R2 cs Hc) as [X _]. cbv zeta in X. rewrite X.
      destruct (Nat.eqb_spec e (block_of (csize c) cs)); [congruence|reflexivity]. }
    destruct (compress_cases (changed c) c) as [(b & Hb & SB & N)|H].
    + rewrite (compress_none _ _ b Hb SB N). assert (b <> e) by congruence.
      rewrite (compress_none (changed c1) c1 b); [exact I|rewrite R1; exact Hb| |rewrite RB by auto; exact N].
      rewrite R3, SB. destruct (Nat.eqb_spec e b); [congruence|reflexivity].
    + destruct (compress_some (changed c) (fun b => match rounded c b with Some q => q | None => None end) c) as (y & E2 & Y1 & Y2 & Y3).
      { intros b Hb SB. destruct (H b Hb SB) as (qb & ->). reflexivity. }
      destruct (compress_some (changed c1) (fun b => match rounded c b with Some q => q | None => None end) c1) as (x & E3 & X1 & X2 & X3).
      { rewrite R1. intros b Hb SB. rewrite R3 in SB. apply andb_prop in SB as [SB NE]. destruct (Nat.eqb_spec e b); [discriminate|]. rewrite RB by auto.
        destruct (H b Hb SB) as (qb & ->). reflexivity. }
      rewrite E3, E2. rewrite R1 in *. split; [congruence|]. rewrite X1. split.
      * intros cs Hc. destruct (X2 cs Hc) as [XC XS]. destruct (Y2 cs Hc) as [YC YS]. destruct (R2 cs Hc) as [RC RS]. cbv zeta in *.
        rewrite XC, XS, YC, YS, RC, RS, R3. destruct (Nat.eqb_spec e (block_of (csize c) cs)) as [<-|N].
        -- rewrite HC, RE. cbn [andb negb]. auto.
        -- rewrite andb_true_r. destruct (changed c _); auto.
      * intros b Hb. rewrite X3, Y3, R3. destruct (changed c b), (Nat.eqb e b); reflexivity.
  - rewrite (compress_none (Nat.eqb e) c e) by (auto; apply Nat.eqb_refl). apply (compress_none _ _ e); auto.
Qed.
End Compress.

(** ** The simulation *)
Section Sim.
Variables (W blkbits d : nat).
Hypothesis HW0 : word_size W.
Hypothesis HB : (blkbits mod W = 0)%nat.
Hypothesis HD : (1 <= d <= 3)%nat.
Variables two_way fast_hash : bool.
Variable enc : stream -> list Z -> option stream.
Variable dec : stream -> stream * option (list Z).
Variable junk : list Z.
Hypothesis HJ : length junk = (4 ^ d)%nat.
Variable size : Z.
Variable val : Z -> Prop.
Variable rt : list Z -> option (option (list Z)).
Variable code : list Z -> list bool.
Variable ok : list Z -> Prop.
Variable rec : list Z -> option (list Z).
Definition fine (v : list Z) : Prop := length v = (4 ^ d)%nat /\ Forall val v.
Hypothesis enc_put : forall s L b, ok b -> wat W s L -> (length L + length (code b) <= cap W s)%nat -> enc s b = Some (put W s (code b)).
Hypothesis dec_read : forall m pos s b, ok b -> readable W m pos (code b) s ->
  exists s', dec s = (s', rec b) /\ rat W m (pos + length (code b)) s'.
Hypothesis code_len : forall b, ok b -> length (code b) = blkbits.
Hypothesis rec_fine : forall b q, ok b -> rec b = Some q -> fine q.
Hypothesis fine_cases : forall b, fine b -> (ok b /\ rt b = Some (rec b)) \/ ((forall s, enc s b = None) /\ rt b = None).
Hypothesis zero_ok : ok (repeat 0 (4 ^ d)) /\ code (repeat 0 (4 ^ d)) = repeat false blkbits /\ rec (repeat 0 (4 ^ d)) = Some (repeat 0 (4 ^ d)).
Let HW := word_size_range W HW0.

Notation compress_blocks := (CacheSpec.compress_blocks rt).
Notation rounded := (CacheSpec.rounded rt).
Notation holds := CacheTags.holds.
Notation cache_ok := (CacheTags.cache_ok two_way fast_hash (4 ^ d)).
Notation encode := (ZfpCache.encode W blkbits enc).
Notation encode_line := (ZfpCache.encode_line W blkbits enc junk).
Notation decode := (ZfpCache.decode W blkbits dec).
Notation decode_line := (ZfpCache.decode_line W blkbits dec).

(** *** Streams *)
Definition st_ok (s : stream) (n : nat) (vs : nat -> list Z) : Prop :=
  fault s = false /\ wfmem W (mem s) /\ (W * length (mem s) = n * blkbits)%nat /\
  forall b, (b < n)%nat -> ok (vs b) /\ block_bits W blkbits (mem s) b = code (vs b).

Lemma enc_block s n vs e v : st_ok s n vs -> (e < n)%nat -> fine v ->
  (rt v = None /\ enc (stream_wseek W s (e * blkbits)) v = None) \/
  (rt v = Some (rec v) /\ exists s1, enc (stream_wseek W s (e * blkbits)) v = Some s1 /\
     st_ok (snd (stream_flush W s1)) n (fun b => if (b =? e)%nat then v else vs b)).
Proof.
  intros (S1 & S2 & S3 & S4) He Hv. destruct (fine_cases v Hv) as [[OK E]|[N E]]; [right|left; split; [exact E|apply N]].
  split; [exact E|]. assert (Hoff : (e * blkbits + blkbits <= W * length (mem s))%nat) by (rewrite S3; nia).
  destruct (wat_wseek W HW s (e * blkbits) S2 S1 ltac:(lia)) as [Hw Hm].
  eexists. split.
  - eapply enc_put; [exact OK|exact Hw|]. rewrite code_len by exact OK. rewrite firstn_length_le by (rewrite membits_length by exact HW; lia). unfold cap. rewrite Hm. lia.
  - destruct (write_block W HW0 blkbits HB s e n (code v) S2 S1 S3 He (code_len v OK)) as (A1 & A2 & A3 & A4 & A5 & _).
    split; [exact A1|]. split; [exact A2|]. split; [rewrite A3; exact S3|]. intros b Hb. destruct (Nat.eqb_spec b e) as [->|N].
    + split; [exact OK|exact A4].
    + rewrite A5 by exact N. apply S4. exact Hb.
Qed.
Lemma dec_block s n vs b : st_ok s n vs -> (b < n)%nat -> exists s', dec (stream_rseek W s (b * blkbits)) = (s', rec (vs b)) /\ st_ok s' n vs /\ mem s' = mem s.
Proof.
  intros (S1 & S2 & S3 & S4) Hb. destruct (S4 b Hb) as [OK E].
  pose proof (read_block W HW0 blkbits HB s b n S2 S1 S3 Hb) as R. rewrite E in R.
  destruct (dec_read _ _ _ _ OK R) as (s' & D & R'). exists s'. split; [exact D|]. destruct R' as (_ & F & M & _).
  split; [|exact M]. split; [exact F|]. rewrite M. auto.
Qed.
Lemma st_ext s n vs vs' : (forall b, (b < n)%nat -> vs b = vs' b) -> st_ok s n vs -> st_ok s n vs'.
Proof. intros H (S1 & S2 & S3 & S4). split; [exact S1|]. split; [exact S2|]. split; [exact S3|]. intros b Hb. rewrite <- H by exact Hb. apply S4. exact Hb. Qed.

(** *** The relation *)
Definition member (ns : list nat) (b : nat) (cs : list nat) : Prop := inside cs ns /\ block_of ns cs = b.

Record R (a : array) (c : contents) (vs : nat -> list Z) : Prop := {
  R_size : sizes a = csize c;
  R_dim : array_size d (csize c);
  R_shape : shape a = shapes (csize c);
  R_cache : cache_ok (blocks_in (csize c)) (acache a);
  R_stream : st_ok (astream a) (blocks_in (csize c)) vs;
  R_saved : forall cs, inside cs (csize c) -> saved c cs = pick (rec (vs (block_of (csize c) cs))) (place_of cs);
  R_in : forall b i w, (b < blocks_in (csize c))%nat -> holds (acache a) b i w ->
    changed c b = w /\ forall cs, member (csize c) b cs ->
      current c cs = Some (nth (place_of cs) (line_at (acache a) i) 0) /\ val (nth (place_of cs) (line_at (acache a) i) 0) /\
      (w = false -> current c cs = saved c cs);
  R_out : forall b, (b < blocks_in (csize c))%nat -> (forall i w, ~ holds (acache a) b i w) ->
    changed c b = false /\ forall cs, member (csize c) b cs -> current c cs = saved c cs }.

Lemma R_ext a c c' vs : ceq c c' -> R a c vs -> R a c' vs.
Proof.
  intros (E1 & E2 & E3) H. constructor; try rewrite <- E1; try apply H.
  - intros cs Hc. rewrite <- (proj2 (E2 cs Hc)). apply (R_saved _ _ _ H). exact Hc.
  - intros b i w Hb Hh. destruct (R_in _ _ _ H b i w Hb Hh) as [A B]. split; [rewrite <- E3 by exact Hb; exact A|].
    intros cs Hc. destruct (B cs Hc) as (X & Y & V). destruct (E2 cs (proj1 Hc)) as [<- <-]. auto.
  - intros b Hb Hh. destruct (R_out _ _ _ H b Hb Hh) as [A B]. split; [rewrite <- E3 by exact Hb; exact A|].
    intros cs Hc. destruct (E2 cs (proj1 Hc)) as [<- <-]. apply B. exact Hc.
Qed.

Lemma shape_of_at a c vs b : R a c vs -> shape_of a b = shape_at (csize c) b.
Proof. intros H. unfold shape_of, shape_at. rewrite (R_shape _ _ _ H). reflexivity. Qed.
Lemma R_len a c vs : R a c vs -> (1 <= length (csize c) <= 3)%nat /\ positive (csize c) /\ length (csize c) = d.
Proof. intros H. destruct (R_dim _ _ _ H) as (A & B & _). rewrite A. auto. Qed.

(** a block in the cache, padded *)
Lemma held_block a c vs b i w : R a c vs -> (b < blocks_in (csize c))%nat -> holds (acache a) b i w ->
  padded_block c b = Some (line_block (csize c) b (line_at (acache a) i)) /\ fine (line_block (csize c) b (line_at (acache a) i)).
Proof.
  intros H Hb Hh. destruct (R_len _ _ _ H) as (L1 & L2 & L3). destruct (R_in _ _ _ H b i w Hb Hh) as [_ B]. split.
  - unfold padded_block, line_block. apply all_some_map. intros j _. apply (proj1 (B _ (cell_member (csize c) b j L2 Hb))).
  - unfold fine, line_block. split; [rewrite map_length, seq_length, L3; reflexivity|]. apply Forall_forall. intros x X. apply in_map_iff in X as (j & <- & _).
    apply (B _ (cell_member (csize c) b j L2 Hb)).
Qed.

Lemma holds_unset c i b j w : (i < slots c)%nat -> holds (set_tag c i 0) b j w <-> holds c b j w /\ j <> i.
Proof.
  intros Hi. unfold CacheTags.holds. rewrite slots_set, tag_at_set by exact Hi. destruct (Nat.eqb_spec j i) as [->|N].
  - split; [intros [_ E]|intros [_ E]; congruence]. exfalso. pose proof (tag_is_used b w) as U. rewrite <- E in U. discriminate.
  - split; [intros [A B]; auto|intros [[A B] _]; auto].
Qed.
Lemma holds_dirty c b i w : holds c b i w -> tag_dirty (tag_at c i) = w /\ tag_used (tag_at c i) = true /\ tag_index (tag_at c i) = Z.of_nat b + 1.
Proof. intros [_ ->]. rewrite tag_is_dirty, tag_is_used, tag_is_index. auto. Qed.
Lemma slot_cases n c i : cache_ok n c -> (i < slots c)%nat -> tag_at c i = 0 \/ exists b w, (b < n)%nat /\ holds c b i w.
Proof. intros H Hi. destruct (ok_tag _ _ _ _ _ H i Hi) as [E|(b & w & A & B & _)]; [auto|right]. exists b, w. split; [exact A|split; assumption]. Qed.
Lemma held_or_not n c b : cache_ok n c -> (exists i w, holds c b i w) \/ (forall i w, ~ holds c b i w).
Proof.
  intros H. pose proof (lookup_spec _ _ _ n c b H) as L. destruct (lookup two_way fast_hash c (Z.of_nat b + 1)) as [i|]; [left|right; exact L].
  destruct L as [_ L]. eauto.
Qed.

(** *** Writing back line i *)
Lemma encode_line_with a c' e l : encode_line (with_cache a c') e l = match encode_line a e l with Some a1 => Some (with_cache a1 c') | None => None end.
Proof.
  unfold ZfpCache.encode_line, ZfpCache.encode. change (adim (with_cache a c')) with (adim a). change (shape_of (with_cache a c') e) with (shape_of a e).
  destruct (gather_line junk l (adim a) (shape_of a e)); [|reflexivity]. cbn [bind]. change (astream (with_cache a c')) with (astream a).
  destruct (enc _ _); reflexivity.
Qed.

Lemma write_back a c vs e i : R a c vs -> (e < blocks_in (csize c))%nat -> holds (acache a) e i true ->
  changed c e = true /\
  ((compress_blocks (Nat.eqb e) c = None /\ encode_line a e (line_at (acache a) i) = None) \/
   (exists c1 s1 vs1, compress_blocks (Nat.eqb e) c = Some c1 /\ encode_line a e (line_at (acache a) i) = Some (with_stream a s1) /\
      csize c1 = csize c /\
      R (with_cache (with_stream a s1) (set_tag (acache a) i 0)) c1 vs1)).
Proof.
  intros H He Hh. destruct (R_len _ _ _ H) as (L1 & L2 & L3). pose proof (R_cache _ _ _ H) as HC. pose proof (proj1 Hh) as Hi.
  destruct (R_in _ _ _ H e i true He Hh) as [CH B]. split; [exact CH|].
  destruct (held_block a c vs e i true H He Hh) as [PB FV]. set (v := line_block (csize c) e (line_at (acache a) i)) in *.
  assert (RD : rounded c e = rt v) by (unfold CacheSpec.rounded; rewrite PB; reflexivity).
  assert (EL : encode_line a e (line_at (acache a) i) = encode a e v).
  { unfold ZfpCache.encode_line. unfold adim. rewrite (R_size _ _ _ H), (shape_of_at _ _ _ _ H).
    rewrite gather_line_ok; [reflexivity|exact L1|exact L2|exact He|rewrite L3; exact HJ|].
    rewrite L3. apply (line_length _ _ _ _ _ _ HC). exact Hi. }
  rewrite EL. unfold ZfpCache.encode.
  destruct (enc_block (astream a) _ vs e v (R_stream _ _ _ H) He FV) as [[N E]|[E (s1 & E1 & ST)]].
  - left. rewrite E. split; [|reflexivity]. apply (compress_none rt _ _ e); [exact He|apply Nat.eqb_refl|congruence].
  - right. destruct (compress_some rt (Nat.eqb e) (fun _ => rec v) c) as (c1 & C1 & C2 & C3 & C4).
    { intros b _ EB. apply Nat.eqb_eq in EB. subst b. rewrite RD, E. reflexivity. }
    exists c1, (snd (stream_flush W s1)), (fun b => if (b =? e)%nat then v else vs b). rewrite E1. cbn [bind].
    split; [exact C1|]. split; [reflexivity|]. split; [exact C2|].
    constructor; rewrite ?C2; try apply H.
    + apply ok_unset; assumption.
    + exact ST.
    + intros cs Hc. destruct (C3 cs Hc) as [_ X]. cbv zeta in X. rewrite X. rewrite (Nat.eqb_sym e). destruct (Nat.eqb_spec (block_of (csize c) cs) e); [reflexivity|].
      apply (R_saved _ _ _ H). exact Hc.
    + intros b j w Hb Hhb. change (acache (with_cache (with_stream a (snd (stream_flush W s1))) (set_tag (acache a) i 0))) with (set_tag (acache a) i 0) in *.
      apply holds_unset in Hhb; [|exact Hi]. destruct Hhb as [Hhb NJ]. destruct (R_in _ _ _ H b j w Hb Hhb) as [X Y].
      assert (NE : b <> e) by (intros ->; apply NJ; apply (holds_once _ _ _ _ _ _ _ _ _ _ HC Hhb Hh)).
      rewrite C4, X. split; [destruct (Nat.eqb_spec e b); [congruence|apply andb_true_r]|].
      intros cs Hc. change (line_at (set_tag (acache a) i 0) j) with (line_at (acache a) j). destruct (C3 cs (proj1 Hc)) as [X1 X2]. cbv zeta in X1, X2. rewrite X1, X2, (proj2 Hc).
      destruct (Nat.eqb_spec e b); [congruence|]. apply Y. exact Hc.
    + intros b Hb NH. change (acache (with_cache (with_stream a (snd (stream_flush W s1))) (set_tag (acache a) i 0))) with (set_tag (acache a) i 0) in *.
      rewrite C4. destruct (Nat.eqb_spec e b) as [<-|NE].
      * cbn [negb]. split; [apply andb_false_r|]. intros cs Hc. destruct (C3 cs (proj1 Hc)) as [X1 X2]. cbv zeta in X1, X2. rewrite X1, X2, (proj2 Hc), Nat.eqb_refl. reflexivity.
      * destruct (R_out _ _ _ H b Hb) as [X Y].
        { intros j w Hhb. apply (NH j w). apply holds_unset; [exact Hi|]. split; [exact Hhb|]. intros ->. destruct Hhb as [_ E2]. destruct Hh as [_ E3]. rewrite E2 in E3.
          apply (f_equal tag_index) in E3. rewrite !tag_is_index in E3. lia. }
        rewrite X. split; [reflexivity|]. intros cs Hc. destruct (C3 cs (proj1 Hc)) as [X1 X2]. cbv zeta in X1, X2. rewrite X1, X2, (proj2 Hc).
        destruct (Nat.eqb_spec e b); [congruence|]. apply Y. exact Hc.
Qed.

(** forgetting a line that is clean or unused *)
Lemma drop a c vs i : R a c vs -> (i < slots (acache a))%nat -> tag_dirty (tag_at (acache a) i) = false ->
  R (with_cache a (set_tag (acache a) i 0)) c vs.
Proof.
  intros H Hi HDi. pose proof (R_cache _ _ _ H) as HC. constructor; try apply H.
  - apply ok_unset; assumption.
  - intros b j w Hb Hh. change (acache (with_cache a (set_tag (acache a) i 0))) with (set_tag (acache a) i 0) in *. apply holds_unset in Hh; [|exact Hi].
    apply (R_in _ _ _ H b j w Hb). apply Hh.
  - intros b Hb NH. change (acache (with_cache a (set_tag (acache a) i 0))) with (set_tag (acache a) i 0) in *.
    destruct (held_or_not _ _ b HC) as [(j & w & Hh)|N]; [|apply (R_out _ _ _ H b Hb N)].
    destruct (Nat.eq_dec j i) as [->|NJ]; [|exfalso; apply (NH j w); apply holds_unset; auto].
    destruct (holds_dirty _ _ _ _ Hh) as [E _]. rewrite HDi in E. subst w. destruct (R_in _ _ _ H b i false Hb Hh) as [X Y]. split; [exact X|].
    intros cs Hc. apply Y; auto.
Qed.

(** *** Fetching a block into an empty line *)
Definition mark (c : contents) (b : nat) (w : bool) : contents := mk_contents (csize c) (current c) (saved c) (fun e => changed c e || (w && (e =? b)%nat)).

Lemma set_set c i t u : set_tag (set_tag c i t) i u = set_tag c i u.
Proof. unfold set_tag. cbn [tags mask lines]. f_equal. generalize (tags c). revert i. intros i l. revert i. induction l as [|x l IH]; intros [|i]; cbn; try reflexivity. f_equal. apply IH. Qed.

Lemma holds_set c i b b' j w v : (i < slots c)%nat -> holds (set_tag c i (tag_is b w)) b' j v <-> (j = i /\ b' = b /\ v = w) \/ (j <> i /\ holds c b' j v).
Proof.
  intros Hi. unfold CacheTags.holds. rewrite slots_set, tag_at_set by exact Hi. destruct (Nat.eqb_spec j i) as [->|N].
  - split.
    + intros [_ E]. left. split; [reflexivity|]. pose proof (f_equal tag_index E) as E1. pose proof (f_equal tag_dirty E) as E2. rewrite !tag_is_index in E1. rewrite !tag_is_dirty in E2. split; [lia|congruence].
    + intros [(_ & -> & ->)|[X _]]; [auto|congruence].
  - split; [auto|]. intros [[X _]|[_ X]]; [congruence|exact X].
Qed.

Lemma fetch a c vs b i write : R a c vs -> (b < blocks_in (csize c))%nat -> tag_at (acache a) i = 0 ->
  home two_way fast_hash (acache a) b i -> (forall j v, ~ holds (acache a) b j v) ->
  (decode_line (with_cache a (set_tag (acache a) i (tag_is b write))) b i = None /\ forall cs, member (csize c) b cs -> current c cs = None) \/
  exists a', decode_line (with_cache a (set_tag (acache a) i (tag_is b write))) b i = Some a' /\ R a' (mark c b write) vs /\ holds (acache a') b i write.
Proof.
  intros H Hb T0 HH NH. destruct (R_len _ _ _ H) as (L1 & L2 & L3). pose proof (R_cache _ _ _ H) as HC. pose proof (home_slot _ _ _ _ _ _ _ HC HH) as Hi.
  destruct (R_out _ _ _ H b Hb NH) as [CH CUR].
  destruct (dec_block (astream a) _ vs b (R_stream _ _ _ H) Hb) as (s' & D & ST & _).
  unfold ZfpCache.decode_line, ZfpCache.decode. change (astream (with_cache a (set_tag (acache a) i (tag_is b write)))) with (astream a). rewrite D.
  destruct (rec (vs b)) as [q|] eqn:RQ; cbn [bind].
  2:{ left. split; [reflexivity|]. intros cs Hc. rewrite (CUR cs Hc), (R_saved _ _ _ H cs (proj1 Hc)), (proj2 Hc), RQ. reflexivity. }
  right. destruct (rec_fine (vs b) q) as [FQ1 FQ2]; [apply (R_stream _ _ _ H); exact Hb|exact RQ|].
  change (adim (with_stream (with_cache a (set_tag (acache a) i (tag_is b write))) s')) with (length (sizes a)).
  change (shape_of (with_stream (with_cache a (set_tag (acache a) i (tag_is b write))) s') b) with (shape_of a b).
  change (line_at (acache (with_stream (with_cache a (set_tag (acache a) i (tag_is b write))) s')) i) with (line_at (acache a) i).
  rewrite (R_size _ _ _ H), (shape_of_at _ _ _ _ H).
  destruct (scatter_line_ok (csize c) b L1 L2 Hb junk ltac:(rewrite L3; exact HJ) q (line_at (acache a) i)) as (l' & E & LL & EQ).
  { rewrite L3. apply (line_length _ _ _ _ _ _ HC Hi). }
  { rewrite L3. exact FQ1. }
  rewrite E. cbn [bind]. eexists. split; [reflexivity|].
  set (c' := set_tag (acache a) i (tag_is b write)).
  change (acache (with_stream (with_cache a c') s')) with c'.
  assert (HC' : cache_ok (blocks_in (csize c)) c').
  { apply ok_set; [exact HC|exact Hb|exact HH|]. intros j v X. elim (NH j v X). }
  assert (Hi' : (i < slots c')%nat) by (unfold c'; rewrite slots_set; exact Hi).
  assert (HS : forall b' j v, holds (set_line c' i l') b' j v <-> (j = i /\ b' = b /\ v = write) \/ (j <> i /\ holds (acache a) b' j v)).
  { intros b' j v. rewrite <- (holds_set (acache a) i b b' j write v Hi). reflexivity. }
  assert (LA : forall j, line_at (set_line c' i l') j = if (j =? i)%nat then l' else line_at (acache a) j).
  { intros j. rewrite (line_at_set _ _ _ _ _ _ _ _ HC' Hi'). destruct (j =? i)%nat; reflexivity. }
  split.
  - constructor; change (csize (mark c b write)) with (csize c); try apply H.
    + apply ok_set_line; [exact HC'|]. rewrite LL. apply (line_length _ _ _ _ _ _ HC Hi).
    + exact ST.
    + intros b' j v Hb' Hh. change (acache (with_cache (with_stream (with_cache a c') s') (set_line c' i l'))) with (set_line c' i l') in *.
      rewrite LA. apply HS in Hh. cbn [mark changed current saved]. destruct Hh as [(-> & -> & ->)|[NJ Hh]].
      * rewrite CH, !Nat.eqb_refl, andb_true_r. split; [reflexivity|]. intros cs Hc. rewrite (EQ cs (proj1 Hc) (proj2 Hc)).
        assert (PL : (place_of cs < length q)%nat) by (rewrite FQ1, <- L3, <- (inside_length _ _ (proj1 Hc)); apply place_of_lt).
        assert (X : saved c cs = Some (nth (place_of cs) q 0)).
        { rewrite (R_saved _ _ _ H cs (proj1 Hc)), (proj2 Hc), RQ. cbn [pick]. apply nth_error_nth'. exact PL. }
        split; [rewrite (CUR cs Hc); exact X|]. split; [|intros _; apply CUR; exact Hc]. rewrite Forall_forall in FQ2. apply FQ2, nth_In. exact PL.
      * destruct (Nat.eqb_spec j i); [congruence|]. destruct (R_in _ _ _ H b' j v Hb' Hh) as [X Y].
        destruct (Nat.eqb_spec b' b) as [->|]; [elim (NH j v Hh)|]. rewrite X, andb_false_r, orb_false_r. split; [reflexivity|exact Y].
    + intros b' Hb' N. change (acache (with_cache (with_stream (with_cache a c') s') (set_line c' i l'))) with (set_line c' i l') in *.
      cbn [mark changed current saved]. destruct (Nat.eqb_spec b' b) as [->|NB]; [elim (N i write); apply HS; auto|].
      rewrite andb_false_r, orb_false_r. apply (R_out _ _ _ H b' Hb'). intros j v Hh. apply (N j v). apply HS. right. split; [|exact Hh].
      intros ->. destruct Hh as [_ X]. rewrite T0 in X. pose proof (tag_is_used b' v) as U. rewrite <- X in U. discriminate.
  - apply HS. auto.
Qed.

(** *** Access to an element *)
Notation line := (ZfpCache.line two_way fast_hash W blkbits enc dec junk).
Notation make_room := (CacheSpec.make_room rt).

Lemma uint_small x : 0 <= x < 2 ^ 32 -> uint x = x.
Proof. intros. unfold uint. apply Z.mod_small. lia. Qed.

Lemma line_ok a c vs cs write : R a c vs -> inside cs (csize c) ->
  let b := block_of (csize c) cs in
  exists r, make_room c b r /\
    match r with
    | None => line a cs write = None
    | Some c1 => csize c1 = csize c /\
        ((current c1 cs = None /\ line a cs write = None) \/
         (exists i a' vs' w, line a cs write = Some (i, a') /\ R a' (mark c1 b write) vs' /\ holds (acache a') b i (w || write)))
    end.
Proof.
  intros H Hc b. destruct (R_len _ _ _ H) as (L1 & L2 & L3). pose proof (R_cache _ _ _ H) as HC. destruct (R_dim _ _ _ H) as (_ & _ & NB).
  assert (Hb : (b < blocks_in (csize c))%nat) by (apply block_of_lt; exact Hc).
  unfold ZfpCache.line. rewrite (R_size _ _ _ H), block_eq by assumption. fold b.
  pose proof (access_spec _ _ _ _ (acache a) b write HC Hb NB) as A.
  inversion A as [i w Hh E|i HH NH E]; clear A.
  - exists (Some c). split; [constructor|]. split; [reflexivity|right].
    rewrite tag_is_index. replace (Z.of_nat b + 1 - 1) with (Z.of_nat b) by lia. rewrite uint_small by lia. rewrite Z.eqb_refl. cbn [negb].
    exists i, (with_cache a (set_tag (acache a) i (tag_is b (w || write)))), vs, w. split; [reflexivity|]. pose proof (proj1 Hh) as Hi.
    assert (HS : forall b' j v, holds (set_tag (acache a) i (tag_is b (w || write))) b' j v <-> (j = i /\ b' = b /\ v = w || write) \/ (j <> i /\ holds (acache a) b' j v)) by (intros; apply holds_set; exact Hi).
    split; [|apply HS; auto].
    constructor; change (csize (mark c b write)) with (csize c); try apply H.
    + apply ok_set; [exact HC|exact Hb| |].
      * destruct Hh as [_ T]. destruct (index_holds _ _ _ _ _ b i HC Hi) as (_ & _ & X); [rewrite T; apply tag_is_index|exact X].
      * intros j v X. apply (holds_once _ _ _ _ _ _ _ _ _ _ HC X Hh).
    + intros b' j v Hb' Hh'. change (acache (with_cache a (set_tag (acache a) i (tag_is b (w || write))))) with (set_tag (acache a) i (tag_is b (w || write))) in *.
      change (line_at (set_tag (acache a) i (tag_is b (w || write))) j) with (line_at (acache a) j). cbn [mark changed current saved].
      apply HS in Hh'. destruct Hh' as [(-> & -> & ->)|[NJ Hh']].
      * destruct (R_in _ _ _ H b i w Hb' Hh) as [X Y]. rewrite X, Nat.eqb_refl, andb_true_r. split; [reflexivity|]. intros ds Hd. destruct (Y ds Hd) as (Y1 & Y2 & Y3).
        split; [exact Y1|]. split; [exact Y2|]. intros F. apply orb_false_elim in F. apply Y3. apply F.
      * destruct (R_in _ _ _ H b' j v Hb' Hh') as [X Y]. destruct (Nat.eqb_spec b' b) as [->|NE]; [elim NJ; apply (holds_once _ _ _ _ _ _ _ _ _ _ HC Hh' Hh)|].
        rewrite X, andb_false_r, orb_false_r. split; [reflexivity|exact Y].
    + intros b' Hb' N. change (acache (with_cache a (set_tag (acache a) i (tag_is b (w || write))))) with (set_tag (acache a) i (tag_is b (w || write))) in *. cbn [mark changed current saved].
      destruct (Nat.eqb_spec b' b) as [->|NE]; [elim (N i (w || write)); apply HS; auto|]. rewrite andb_false_r, orb_false_r.
      apply (R_out _ _ _ H b' Hb'). intros j v X. apply (N j v). apply HS. right. split; [|exact X]. intros ->. destruct X as [_ X]. destruct Hh as [_ Y]. rewrite X in Y.
      apply (f_equal tag_index) in Y. rewrite !tag_is_index in Y. lia.
  - pose proof (home_slot _ _ _ _ _ _ _ HC HH) as Hi. change (acache (with_cache a (set_tag (acache a) i (tag_is b write)))) with (set_tag (acache a) i (tag_is b write)).
    change (line_at (set_tag (acache a) i (tag_is b write)) i) with (line_at (acache a) i).
    assert (NEQ : uint (tag_index (tag_at (acache a) i) - 1) =? Z.of_nat b = false).
    { apply Z.eqb_neq. destruct (slot_cases _ _ _ HC Hi) as [->|(e & w & He & Hh)]; [change (uint (tag_index 0 - 1)) with (2 ^ 32 - 1); lia|].
      destruct (holds_dirty _ _ _ _ Hh) as (_ & _ & ->). rewrite uint_small by lia. intros C. apply (NH i w). assert (e = b) by lia. subst e. exact Hh. }
    rewrite NEQ. cbn [negb].
    (* after the old line is gone *)
    assert (FETCH : forall a1 c1 vs1, R (with_cache a1 (set_tag (acache a) i 0)) c1 vs1 -> csize c1 = csize c ->
      (current c1 cs = None /\ decode_line (with_cache a1 (set_tag (acache a) i (tag_is b write))) b i = None) \/
      (exists a' vs', decode_line (with_cache a1 (set_tag (acache a) i (tag_is b write))) b i = Some a' /\ R a' (mark c1 b write) vs' /\ holds (acache a') b i write)).
    { intros a1 c1 vs1 H1 E1. destruct (fetch _ c1 vs1 b i write H1) as [[F1 F2]|(a' & F1 & F2 & F3)].
      - rewrite E1. exact Hb.
      - change (tag_at (set_tag (acache a) i 0) i = 0). rewrite tag_at_set, Nat.eqb_refl by exact Hi. reflexivity.
      - exact HH.
      - intros j v X. change (holds (set_tag (acache a) i 0) b j v) in X. apply holds_unset in X; [|exact Hi]. apply (NH j v). apply X.
      - left. change (acache (with_cache a1 (set_tag (acache a) i 0))) with (set_tag (acache a) i 0) in F1. rewrite set_set in F1. split; [|exact F1].
        apply F2. rewrite E1. split; [exact Hc|reflexivity].
      - right. change (acache (with_cache a1 (set_tag (acache a) i 0))) with (set_tag (acache a) i 0) in F1. rewrite set_set in F1. exists a', vs1. auto. }
    destruct (tag_dirty (tag_at (acache a) i)) eqn:TD.
    + destruct (slot_cases _ _ _ HC Hi) as [Z0|(e & w & He & Hh)]; [rewrite Z0 in TD; discriminate|].
      destruct (holds_dirty _ _ _ _ Hh) as (D1 & _ & D3). rewrite TD in D1. subst w. rewrite D3. replace (Z.of_nat e + 1 - 1) with (Z.of_nat e) by lia.
      rewrite uint_small, Nat2Z.id by lia. rewrite encode_line_with.
      assert (NE : e <> b) by (intros ->; exact (NH i true Hh)).
      destruct (write_back a c vs e i H He Hh) as [CH [[N1 N2]|(c1 & s1 & vs1 & C1 & C2 & C3 & C4)]].
      * exists None. rewrite <- N1 at 1. split; [constructor; assumption|]. rewrite N2. reflexivity.
      * exists (Some c1). rewrite <- C1 at 1. split; [constructor; assumption|]. split; [exact C3|]. rewrite C2. cbn [bind].
        destruct (FETCH (with_stream a s1) c1 vs1 C4 C3) as [[F1 F2]|(a' & vs' & F1 & F2 & F3)].
        -- left. rewrite F2. auto.
        -- right. exists i, a', vs', false. rewrite F1. auto.
    + exists (Some c). split; [constructor|]. split; [reflexivity|]. cbn [bind].
      destruct (FETCH a c vs (drop a c vs i H Hi TD) eq_refl) as [[F1 F2]|(a' & vs' & F1 & F2 & F3)].
      * left. rewrite F2. auto.
      * right. exists i, a', vs', false. rewrite F1. auto.
Qed.

(** *** Get and update *)
Definition sim (a : array) (c : contents) (o : op) : Prop :=
  exists r, allowed W blkbits rt dec c o r /\
    match r with
    | None => perform two_way fast_hash W blkbits enc dec junk size a o = None
    | Some (y, c') => csize c' = size_after (csize c) o /\ exists a' vs', perform two_way fast_hash W blkbits enc dec junk size a o = Some (y, a') /\ R a' c' vs'
    end.

Lemma mark_false c b : ceq (mark c b false) c.
Proof. split; [reflexivity|]. split; [auto|]. intros e _. cbn. apply orb_false_r. Qed.

Lemma sim_get a c vs cs : R a c vs -> inside cs (csize c) -> sim a c (Get cs).
Proof.
  intros H Hc. destruct (R_len _ _ _ H) as (L1 & L2 & L3). destruct (line_ok a c vs cs false H Hc) as (r & MR & X).
  eexists. split; [apply allow_get; exact MR|]. unfold perform, ZfpCache.get. destruct r as [c1|]; [|rewrite X; reflexivity].
  destruct X as [E1 [[X1 X2]|(i & a' & vs' & w & X1 & X2 & X3)]]; cbn [bind]; [rewrite X1, X2; reflexivity|].
  rewrite X1. cbn [bind]. rewrite orb_false_r in X3.
  assert (Hb : (block_of (csize c) cs < blocks_in (csize c1))%nat) by (rewrite E1; apply block_of_lt; exact Hc).
  destruct (R_in _ _ _ X2 _ i w Hb X3) as [_ Y]. destruct (Y cs) as (Y1 & _).
  { change (csize (mark c1 (block_of (csize c) cs) false)) with (csize c1). rewrite E1. split; [exact Hc|reflexivity]. }
  change (current (mark c1 (block_of (csize c) cs) false) cs) with (current c1 cs) in Y1. rewrite Y1. cbn [bind fst snd].
  rewrite index_eq by (rewrite (inside_length _ _ Hc); lia).
  split; [exact E1|]. exists a', vs'. split; [reflexivity|]. apply (R_ext _ _ _ _ (mark_false c1 (block_of (csize c) cs)) X2).
Qed.

Lemma place_inj ns cs ds : inside cs ns -> inside ds ns -> block_of ns cs = block_of ns ds -> place_of cs = place_of ds -> cs = ds.
Proof. intros Hc Hd E1 E2. rewrite <- (cell_of ns cs Hc), <- (cell_of ns ds Hd), E1, E2. reflexivity. Qed.

Lemma sim_update a c vs cs f : R a c vs -> inside cs (csize c) -> (forall x, val x -> val (f x)) -> sim a c (Update cs f).
Proof.
  intros H Hc Hf. destruct (R_len _ _ _ H) as (L1 & L2 & L3). destruct (line_ok a c vs cs true H Hc) as (r & MR & X).
  eexists. split; [apply allow_update; exact MR|]. unfold perform, ZfpCache.update. destruct r as [c1|]; [|rewrite X; reflexivity].
  destruct X as [E1 [[X1 X2]|(i & a' & vs' & w & X1 & X2 & X3)]]; cbn [bind]; [rewrite X1, X2; reflexivity|].
  rewrite X1. cbn [bind]. rewrite orb_true_r in X3. set (b := block_of (csize c) cs) in *.
  assert (Hb : (b < blocks_in (csize c1))%nat) by (rewrite E1; apply block_of_lt; exact Hc).
  destruct (R_in _ _ _ X2 b i true Hb X3) as [CH Y]. change (csize (mark c1 b true)) with (csize c1) in Y.
  assert (Mc : member (csize c1) b cs) by (rewrite E1; split; [exact Hc|reflexivity]).
  destruct (Y cs Mc) as (Y1 & Y2 & _).
  change (current (mark c1 b true) cs) with (current c1 cs) in Y1. rewrite Y1. cbn [bind fst snd].
  rewrite index_eq by (rewrite (inside_length _ _ Hc); lia).
  split; [exact E1|]. eexists. exists vs'. split; [reflexivity|].
  set (v := f (nth (place_of cs) (line_at (acache a') i) 0)). set (l' := upd (line_at (acache a') i) (place_of cs) v).
  pose proof (R_cache _ _ _ X2) as HC'. change (csize (mark c1 b true)) with (csize c1) in HC'. pose proof (proj1 X3) as Hi.
  pose proof (line_length _ _ _ _ _ _ HC' Hi) as LL.
  assert (PL : (place_of cs < length (line_at (acache a') i))%nat) by (rewrite LL, <- L3, <- (inside_length _ _ Hc); apply place_of_lt).
  constructor; change (csize (put_value c1 cs v)) with (csize c1); try apply X2.
  - apply ok_set_line; [exact HC'|]. unfold l'. rewrite upd_length'. exact LL.
  - intros b' j u Hb' Hh. change (acache (with_cache a' (set_line (acache a') i l'))) with (set_line (acache a') i l') in *.
    change (holds (acache a') b' j u) in Hh. rewrite (line_at_set _ _ _ _ _ _ _ _ HC' Hi). destruct (R_in _ _ _ X2 b' j u Hb' Hh) as [V1 V2].
    change (csize (mark c1 b true)) with (csize c1) in V2. cbn [mark changed current saved] in V1, V2. cbn [put_value changed current saved].
    fold b. rewrite E1. fold b. split; [rewrite <- V1; f_equal; rewrite andb_true_l; reflexivity|]. intros ds Hd. rewrite E1 in V2.
    destruct (Nat.eqb_spec j i) as [->|NJ].
    + assert (EB : b' = b) by (destruct Hh as [_ T1]; destruct X3 as [_ T2]; rewrite T1 in T2; apply (f_equal tag_index) in T2; rewrite !tag_is_index in T2; lia).
      subst b'. assert (u = true) by (apply (holds_once _ _ _ _ _ _ _ _ _ _ HC' Hh X3)). subst u.
      destruct (list_eq_dec Nat.eq_dec ds cs) as [->|NE].
      * unfold l'. rewrite upd_nth_same by exact PL. split; [reflexivity|]. split; [apply Hf; exact Y2|intros F; exfalso; congruence].
      * unfold l'. rewrite upd_nth_other; [|intros EP; apply NE; apply (place_inj (csize c)); [apply Hd|exact Hc|rewrite (proj2 Hd); reflexivity|auto]].
        destruct (V2 ds Hd) as (V3 & V4 & _). split; [exact V3|]. split; [exact V4|intros F; exfalso; congruence].
    + destruct (list_eq_dec Nat.eq_dec ds cs) as [->|NE]; [|apply V2; exact Hd]. exfalso. destruct Hd as [_ Hd]. fold b in Hd. subst b'. apply NJ.
      apply (holds_once _ _ _ _ _ _ _ _ _ _ HC' Hh X3).
  - intros b' Hb' N. change (acache (with_cache a' (set_line (acache a') i l'))) with (set_line (acache a') i l') in *.
    destruct (R_out _ _ _ X2 b' Hb') as [V1 V2]; [exact N|]. change (csize (mark c1 b true)) with (csize c1) in V2. cbn [mark changed current saved] in V1, V2. cbn [put_value changed current saved].
    rewrite E1 in *. fold b. split; [rewrite <- V1; f_equal|]. intros ds Hd. destruct (list_eq_dec Nat.eq_dec ds cs) as [->|NE]; [|apply V2; exact Hd].
    exfalso. destruct Hd as [_ Hd]. fold b in Hd. subst b'. exact (N i true X3).
Qed.

Lemma sim_flat a c vs i o1 o2 : R a c vs -> (i < fold_right Nat.mul 1 (csize c))%nat ->
  (forall cs, flat (csize c) i cs -> sim a c (o1 cs)) ->
  (forall cs r, flat (csize c) i cs -> allowed W blkbits rt dec c (o1 cs) r -> allowed W blkbits rt dec c o2 r) ->
  perform two_way fast_hash W blkbits enc dec junk size a o2 = perform two_way fast_hash W blkbits enc dec junk size a (o1 (unflatten (sizes a) i)) ->
  size_after (csize c) o2 = csize c -> (forall cs, size_after (csize c) (o1 cs) = csize c) -> sim a c o2.
Proof.
  intros H Hi S A P Z1 Z2. destruct (R_len _ _ _ H) as (L1 & L2 & L3).
  assert (F : flat (csize c) i (digits (csize c) i)) by (split; [apply digits_inside; exact L2|apply number_digits; assumption]).
  destruct (S _ F) as (r & R1 & R2). exists r. split; [apply (A _ _ F R1)|]. rewrite P, (R_size _ _ _ H), unflatten_eq by assumption. rewrite Z1. rewrite Z2 in R2. exact R2.
Qed.

(** *** Flush *)
Notation flush_cache := (ZfpCache.flush_cache W blkbits enc junk).
Definition flush_body (i : nat) (a : array) : option array :=
  let t := tag_at (acache a) i in
  if tag_used t then
    a <- (if tag_dirty t then encode_line a (Z.to_nat (uint (tag_index t - 1))) (line_at (acache a) i) else Some a);
    Some (with_cache a (set_tag (acache a) i 0))
  else Some a.

Lemma flush_loop k : forall i a c vs, R a c vs -> (k + i = slots (acache a))%nat -> (forall j, (j < i)%nat -> tag_at (acache a) j = 0) ->
  match compress_blocks (changed c) c with
  | None => for_ k i flush_body a = None
  | Some c' => exists a' vs', for_ k i flush_body a = Some a' /\ R a' c' vs' /\ sizes a' = sizes a /\ (forall j, tag_at (acache a') j = 0)
  end.
Proof.
  induction k as [|k IH]; intros i a c vs H HK HZ.
  - (* nothing is cached any more *)
    assert (NH : forall b j w, ~ holds (acache a) b j w).
    { intros b j w [Hj E]. rewrite HZ in E by lia. pose proof (tag_is_used b w) as U. rewrite <- E in U. discriminate. }
    destruct (compress_some rt (changed c) (fun _ => None) c) as (c' & E & C1 & C2 & C3).
    { intros b Hb CH. destruct (R_out _ _ _ H b Hb (NH b)) as [X _]. congruence. }
    rewrite E. exists a, vs. split; [reflexivity|]. split; [|split; [reflexivity|]].
    + apply (R_ext a c); [|exact H]. split; [symmetry; exact C1|]. split.
      * intros cs Hc. destruct (C2 cs Hc) as [X Y]. cbv zeta in X, Y. rewrite X, Y. destruct (R_out _ _ _ H _ (block_of_lt _ _ Hc) (NH _)) as [-> _]. auto.
      * intros b Hb. rewrite C3. destruct (R_out _ _ _ H b Hb (NH b)) as [-> _]. reflexivity.
    + intros j. destruct (Nat.lt_ge_cases j (slots (acache a))); [apply HZ; lia|]. apply nth_overflow. assumption.
  - assert (Hi : (i < slots (acache a))%nat) by lia. pose proof (R_cache _ _ _ H) as HC. destruct (R_len _ _ _ H) as (L1 & L2 & L3). destruct (R_dim _ _ _ H) as (_ & _ & NB).
    assert (NEXT : forall a1, acache a1 = set_tag (acache a) i 0 -> (k + Datatypes.S i = slots (acache a1))%nat /\ (forall j, (j < Datatypes.S i)%nat -> tag_at (acache a1) j = 0)).
    { intros a1 E. rewrite E, slots_set. split; [lia|]. intros j Hj. rewrite tag_at_set by exact Hi. destruct (Nat.eqb_spec j i); [reflexivity|apply HZ; lia]. }
    cbn [for_]. unfold flush_body at 1 3. cbv zeta.
    destruct (slot_cases _ _ _ HC Hi) as [Z0|(e & w & He & Hh)].
    + rewrite Z0. change (tag_used 0) with false. cbv iota. cbn [bind]. apply (IH (Datatypes.S i) a c vs H); [lia|].
      intros j Hj. destruct (Nat.eq_dec j i) as [->|]; [exact Z0|apply HZ; lia].
    + destruct (holds_dirty _ _ _ _ Hh) as (D1 & D2 & D3). rewrite D1, D2, D3. replace (Z.of_nat e + 1 - 1) with (Z.of_nat e) by lia. rewrite uint_small, Nat2Z.id by lia.
      destruct w.
      * destruct (write_back a c vs e i H He Hh) as [CH [[N1 N2]|(c1 & s1 & vs1 & C1 & C2 & C3 & C4)]].
        -- rewrite N2. cbn [bind]. pose proof (compress_step rt c e L2 He CH) as ST. rewrite N1 in ST. rewrite ST. reflexivity.
        -- rewrite C2. cbn [bind]. pose proof (compress_step rt c e L2 He CH) as ST. rewrite C1 in ST.
           change (acache (with_stream a s1)) with (acache a).
           destruct (NEXT (with_cache (with_stream a s1) (set_tag (acache a) i 0)) eq_refl) as [N1 N2].
           specialize (IH (Datatypes.S i) _ c1 vs1 C4 N1 N2).
           destruct (compress_blocks (changed c1) c1) as [x|]; destruct (compress_blocks (changed c) c) as [y|]; try (elim ST; fail).
           ++ destruct IH as (a' & vs' & I1 & I2 & I3 & I4). exists a', vs'. split; [exact I1|]. split; [apply (R_ext a' x y vs' ST I2)|]. split; [exact I3|exact I4].
           ++ exact IH.
      * cbn [bind]. destruct (NEXT (with_cache a (set_tag (acache a) i 0)) eq_refl) as [N1 N2].
        specialize (IH (Datatypes.S i) _ c vs (drop a c vs i H Hi D1) N1 N2). exact IH.
Qed.

Lemma flush_ok a c vs : R a c vs ->
  match compress_blocks (changed c) c with
  | None => flush_cache a = None
  | Some c' => exists a' vs', flush_cache a = Some a' /\ R a' c' vs' /\ sizes a' = sizes a /\ (forall j, tag_at (acache a') j = 0)
  end.
Proof.
  intros H. unfold ZfpCache.flush_cache. rewrite <- (ok_tags _ _ _ _ _ (R_cache _ _ _ H)), Nat2Z.id.
  apply (flush_loop (slots (acache a)) 0 a c vs H); [lia|lia].
Qed.
Lemma compress_size S c c' : compress_blocks S c = Some c' -> csize c' = csize c.
Proof. unfold CacheSpec.compress_blocks. destruct (forallb _ _); [|discriminate]. intros E. injection E as <-. reflexivity. Qed.

Lemma sim_flush a c vs : R a c vs -> sim a c Flush.
Proof.
  intros H. eexists. split; [apply allow_flush|]. pose proof (flush_ok a c vs H) as F. unfold perform.
  destruct (compress_blocks (changed c) c) as [c'|] eqn:E; cbn [bind]; [|rewrite F; reflexivity].
  destruct F as (a' & vs' & F1 & F2 & _). rewrite F1. cbn [bind]. split; [apply (compress_size _ _ _ E)|]. eauto.
Qed.

(** an array whose cache was replaced by an empty one *)
Lemma R_empty a c vs k : R a c vs -> (forall j, tag_at (acache a) j = 0) -> cache_ok (blocks_in (csize c)) k -> (forall j, tag_at k j = 0) -> R (with_cache a k) c vs.
Proof.
  intros H Z1 HK Z2. constructor; try apply H.
  - exact HK.
  - intros b i w _ Hh. elim (empty_holds k b i w Z2 Hh).
  - intros b Hb _. apply (R_out _ _ _ H b Hb). intros i w. apply empty_holds. exact Z1.
Qed.
Lemma line_count_pos n ns : 1 <= line_count size n ns.
Proof. unfold line_count. apply Z.le_max_r. Qed.
Lemma sim_cache_size a c vs n : R a c vs -> line_count size n (csize c) <= 2 ^ 31 -> sim a c (CacheSize n).
Proof.
  intros H HN. eexists. split; [apply allow_cache_size|]. pose proof (flush_ok a c vs H) as F. unfold perform, set_cache_size.
  destruct (compress_blocks (changed c) c) as [c'|] eqn:E; cbn [bind]; [|rewrite F; reflexivity].
  destruct F as (a' & vs' & F1 & F2 & F3 & F4). rewrite F1. cbn [bind]. pose proof (compress_size _ _ _ E) as ES. split; [exact ES|].
  eexists. exists vs'. split; [reflexivity|]. apply R_empty; [exact F2|exact F4| |].
  - apply resize_ok; [exact HJ|]. rewrite F3, (R_size _ _ _ H). split; [apply line_count_pos|exact HN].
  - intros j. apply cleared_tag.
Qed.
Lemma sim_clear a c vs : R a c vs -> sim a c Clear.
Proof.
  intros H. eexists. split; [apply allow_clear|]. split; [reflexivity|]. eexists. exists vs. split; [reflexivity|].
  constructor; cbn [csize current saved changed]; try apply H.
  - apply (clear_ok _ _ _ _ _ _ (R_cache _ _ _ H)).
  - intros b i w _ Hh. elim (empty_holds _ b i w (cleared_tag (acache a)) Hh).
  - intros b Hb _. auto.
Qed.

(** *** Compressed data *)
Lemma st_open s n vs : st_ok s n vs -> st_ok (stream_open (mem s)) n vs.
Proof. intros (S1 & S2 & S3 & S4). split; [reflexivity|]. split; [exact S2|]. split; [exact S3|exact S4]. Qed.
Lemma sim_data a c vs : R a c vs -> sim a c Data.
Proof.
  intros H. pose proof (flush_ok a c vs H) as F. destruct (compress_blocks (changed c) c) as [c'|] eqn:E.
  - destruct F as (a' & vs' & F1 & F2 & F3 & F4). pose proof (compress_size _ _ _ E) as ES.
    exists (Some (Words (mem (astream a')), c')). split.
    + apply allow_data; [exact E| |].
      * rewrite <- ES. apply (R_stream _ _ _ F2).
      * intros cs Hc. rewrite <- ES in Hc |- *. assert (Hb : (block_of (csize c') cs < blocks_in (csize c'))%nat) by (apply block_of_lt; exact Hc).
        destruct (dec_block _ _ vs' _ (st_open _ _ _ (R_stream _ _ _ F2)) Hb) as (s' & D & _). unfold decoded_block. rewrite D. cbn [snd].
        destruct (R_out _ _ _ F2 _ Hb) as [_ X]; [intros i w; apply empty_holds; exact F4|]. rewrite (X cs) by (split; [exact Hc|reflexivity]).
        symmetry. apply (R_saved _ _ _ F2). exact Hc.
    + split; [exact ES|]. exists a', vs'. unfold perform, compressed_data. rewrite F1. auto.
  - exists None. split; [apply allow_data_undefined; exact E|]. unfold perform, compressed_data. rewrite F. reflexivity.
Qed.

(** *** The whole array *)
Notation get_all := (ZfpCache.get_all two_way fast_hash W blkbits dec).
Notation set_all := (ZfpCache.set_all W blkbits enc junk).

Lemma R_stream_change a c vs s : R a c vs -> st_ok s (blocks_in (csize c)) vs -> R (with_stream a s) c vs.
Proof. intros H S. constructor; try apply H. exact S. Qed.

Definition copied (c : contents) (m : list Z) (p : Z) (n : nat) (m' : list Z) : Prop :=
  length m' = length m /\
  (forall cs, inside cs (csize c) -> (block_of (csize c) cs < n)%nat -> current c cs = Some (at_addr 0 m' (addr p (contiguous 1 (csize c)) cs))) /\
  (forall x, 0 <= x -> (forall cs, inside cs (csize c) -> addr p (contiguous 1 (csize c)) cs <> x) -> at_addr 0 m' x = at_addr 0 m x).

Lemma copy_block c m p b m1 q : array_size d (csize c) -> (b < blocks_in (csize c))%nat -> fits m p (csize c) (contiguous 1 (csize c)) ->
  length q = (4 ^ d)%nat -> (forall cs, member (csize c) b cs -> current c cs = Some (nth (place_of cs) q 0)) -> copied c m p b m1 ->
  exists m2, scatter_array q m1 (block_ptr (csize c) b p) (shape_at (csize c) b) (contiguous 1 (csize c)) = Some m2 /\ copied c m p (Datatypes.S b) m2.
Proof.
  intros (A1 & A2 & A3) Hb F LQ Q (C1 & C2 & C3).
  destruct (scatter_array_ok (csize c) b ltac:(lia) A2 Hb junk ltac:(rewrite A1; exact HJ) p q m1) as (m2 & E & S1 & S2 & S3).
  { intros cs Hc. rewrite C1. apply F. exact Hc. }
  { rewrite A1. exact LQ. }
  exists m2. split; [exact E|]. split; [congruence|]. split.
  - intros cs Hc Hlt. destruct (Nat.eq_dec (block_of (csize c) cs) b) as [EB|NB].
    + rewrite S2 by assumption. apply Q. split; assumption.
    + rewrite S3; [apply C2; [exact Hc|lia]|apply F; exact Hc|]. intros ds Hd ED EA. apply NB. rewrite <- ED. f_equal.
      apply (contiguous_no_overlap p (csize c)); auto.
  - intros x Hx N. rewrite S3; [apply C3; assumption|exact Hx|]. intros cs Hc _. apply N. exact Hc.
Qed.

Lemma get_all_loop p c m : forall n j m1 a vs, R a c vs -> (n + j = blocks_in (csize c))%nat -> fits m p (csize c) (contiguous 1 (csize c)) -> copied c m p j m1 ->
  let body := fun b (st : list Z * array) => let '(m, a) := st in
    match lookup two_way fast_hash (acache a) (Z.of_nat b + 1) with
    | Some i => m <- scatter_array (line_at (acache a) i) m (block_ptr (csize c) b p) (shape_of a b) (strides (sizes a)); Some (m, a)
    | None => decode_array W blkbits dec a b m (block_ptr (csize c) b p) (strides (sizes a))
    end in
  (exists m' a', for_ n j body (m1, a) = Some (m', a') /\ stored c m p m' /\ R a' c vs) \/
  (for_ n j body (m1, a) = None /\ exists cs, inside cs (csize c) /\ current c cs = None).
Proof.
  induction n as [|n IH]; intros j m1 a vs H HN F C; cbv zeta.
  - left. exists m1, a. split; [reflexivity|]. split; [|exact H]. destruct C as (C1 & C2 & C3). split; [exact C1|]. split; [|exact C3].
    intros cs Hc. apply C2; [exact Hc|]. cbn in HN. rewrite HN. apply block_of_lt. exact Hc.
  - cbn [for_]. pose proof (R_cache _ _ _ H) as HC. destruct (R_len _ _ _ H) as (L1 & L2 & L3). assert (Hb : (j < blocks_in (csize c))%nat) by lia.
    pose proof (lookup_spec _ _ _ _ (acache a) j HC) as LS. rewrite (R_size _ _ _ H), (shape_of_at _ _ _ _ H), strides_eq by exact L1.
    destruct (lookup two_way fast_hash (acache a) (Z.of_nat j + 1)) as [i|].
    + destruct LS as [_ Hh]. destruct (R_in _ _ _ H j i _ Hb Hh) as [_ Y].
      destruct (copy_block c m p j m1 (line_at (acache a) i) (R_dim _ _ _ H) Hb F) as (m2 & E & C'); [apply (line_length _ _ _ _ _ _ HC); apply Hh|apply Y|exact C|].
      rewrite E. cbn [bind]. apply (IH (Datatypes.S j) m2 a vs H); [lia|exact F|exact C'].
    + destruct (R_out _ _ _ H j Hb LS) as [_ CUR]. destruct (dec_block _ _ vs j (R_stream _ _ _ H) Hb) as (s' & D & ST & _).
      unfold decode_array, ZfpCache.decode. rewrite D. destruct (rec (vs j)) as [q|] eqn:RQ; cbn [bind].
      * destruct (rec_fine (vs j) q) as [FQ1 FQ2]; [apply (R_stream _ _ _ H); exact Hb|exact RQ|].
        destruct (copy_block c m p j m1 q (R_dim _ _ _ H) Hb F FQ1) as (m2 & E & C'); [|exact C|].
        { intros cs Hc. rewrite (CUR cs Hc), (R_saved _ _ _ H cs (proj1 Hc)), (proj2 Hc), RQ. cbn [pick]. apply nth_error_nth'.
          rewrite FQ1, <- L3, <- (inside_length _ _ (proj1 Hc)). apply place_of_lt. }
        change (shape_of (with_stream a s') j) with (shape_of a j). rewrite (shape_of_at _ _ _ _ H), E. cbn [bind].
        apply (IH (Datatypes.S j) m2 (with_stream a s') vs); [apply R_stream_change; assumption|lia|exact F|exact C'].
      * right. split; [reflexivity|]. destruct (cell_member (csize c) j 0 L2 Hb) as [M1 M2]. exists (cell (csize c) j 0). split; [exact M1|].
        rewrite (CUR _ (conj M1 M2)), (R_saved _ _ _ H _ M1), M2, RQ. reflexivity.
Qed.
Lemma sim_get_all a c vs m p : R a c vs -> fits m p (csize c) (contiguous 1 (csize c)) -> sim a c (GetAll m p).
Proof.
  intros H F. destruct (R_len _ _ _ H) as (L1 & L2 & L3).
  assert (E : get_all a m p = for_ (blocks_in (csize c)) 0 (fun b (st : list Z * array) => let '(m, a) := st in
    match lookup two_way fast_hash (acache a) (Z.of_nat b + 1) with
    | Some i => m <- scatter_array (line_at (acache a) i) m (block_ptr (csize c) b p) (shape_of a b) (strides (sizes a)); Some (m, a)
    | None => decode_array W blkbits dec a b m (block_ptr (csize c) b p) (strides (sizes a))
    end) (m, a)).
  { unfold ZfpCache.get_all. rewrite (R_size _ _ _ H) at 1. rewrite each_block_eq by assumption. reflexivity. }
  unfold sim, perform. rewrite E.
  destruct (get_all_loop p c m (blocks_in (csize c)) 0 m a vs H ltac:(lia) F) as [(m' & a' & G1 & G2 & G3)|[G1 (cs & G2 & G3)]].
  { split; [reflexivity|]. split; [lia|reflexivity]. }
  - cbv zeta in G1. rewrite G1. exists (Some (Memory m', c)). split; [apply allow_get_all; exact G2|]. split; [reflexivity|]. exists a', vs. auto.
  - cbv zeta in G1. rewrite G1. exists None. split; [apply (allow_get_all_undefined _ _ _ _ _ _ _ cs); assumption|reflexivity].
Qed.

Lemma set_all_loop p ns m : array_size d ns -> fits m p ns (contiguous 1 ns) -> (forall cs, inside cs ns -> val (at_addr 0 m (addr p (contiguous 1 ns) cs))) ->
  forall n j a vs, (n + j = blocks_in ns)%nat -> sizes a = ns -> shape a = shapes ns ->
  st_ok (astream a) (blocks_in ns) vs -> (forall b, (b < j)%nat -> vs b = array_block 0 m p ns (contiguous 1 ns) b /\ rt (vs b) = Some (rec (vs b))) ->
  let body := fun b (a : array) => encode_array W blkbits enc junk a b m (block_ptr ns b p) (strides (sizes a)) in
  (exists s, for_ n j body a = Some (with_stream a s) /\ st_ok s (blocks_in ns) (array_block 0 m p ns (contiguous 1 ns)) /\
     forall b, (b < blocks_in ns)%nat -> rt (array_block 0 m p ns (contiguous 1 ns) b) = Some (rec (array_block 0 m p ns (contiguous 1 ns) b))) \/
  (for_ n j body a = None /\ exists b, (b < blocks_in ns)%nat /\ rt (array_block 0 m p ns (contiguous 1 ns) b) = None).
Proof.
  intros (A1 & A2 & A3) F HV. induction n as [|n IH]; intros j a vs HN HS HSH ST HB2; cbv zeta.
  - left. exists (astream a). split; [cbn [for_]; destruct a; reflexivity|]. cbn in HN. subst j. split.
    + apply (st_ext _ _ vs); [|exact ST]. intros b Hb. apply HB2. exact Hb.
    + intros b Hb. destruct (HB2 b Hb) as [<- X]. exact X.
  - cbn [for_]. assert (Hb : (j < blocks_in ns)%nat) by lia. unfold encode_array at 1 3.
    assert (SH : shape_of a j = shape_at ns j) by (unfold shape_of, shape_at; rewrite HSH; reflexivity).
    rewrite SH, HS, strides_eq by lia. rewrite gather_array_ok; [|lia|exact A2|exact Hb|rewrite A1; exact HJ|exact F]. cbn [bind].
    set (v := array_block 0 m p ns (contiguous 1 ns) j).
    assert (FV : fine v).
    { split; [unfold v, array_block; rewrite map_length, seq_length, A1; reflexivity|]. apply Forall_forall. intros x X. apply in_map_iff in X as (i & <- & _).
      apply HV. apply (cell_member ns j i A2 Hb). }
    unfold ZfpCache.encode at 1 2. destruct (enc_block (astream a) _ vs j v ST Hb FV) as [[N E]|[RT (s1 & E1 & ST')]].
    + right. rewrite E. split; [reflexivity|]. exists j. auto.
    + rewrite E1. cbn [bind].
      destruct (IH (Datatypes.S j) (with_stream a (snd (stream_flush W s1))) (fun b => if (b =? j)%nat then v else vs b)) as [(s & I1 & I2)|[I1 I2]].
      * lia.
      * exact HS.
      * exact HSH.
      * exact ST'.
      * intros b Hbj. destruct (Nat.eqb_spec b j) as [->|NE]; [auto|apply HB2; lia].
      * left. exists s. split; [|exact I2]. cbv zeta in I1. exact I1.
      * right. split; [|exact I2]. cbv zeta in I1. exact I1.
Qed.
Lemma memory_padded ns m p b : padded_block (from_memory ns m p) b = Some (array_block 0 m p ns (contiguous 1 ns) b).
Proof. unfold padded_block, array_block. apply all_some_map. reflexivity. Qed.
Lemma sim_set_all a c vs m p : R a c vs -> fits m p (csize c) (contiguous 1 (csize c)) ->
  (forall cs, inside cs (csize c) -> val (at_addr 0 m (addr p (contiguous 1 (csize c)) cs))) -> sim a c (SetAll m p).
Proof.
  intros H F HV. destruct (R_len _ _ _ H) as (L1 & L2 & L3). eexists. split; [apply allow_set_all|].
  assert (E : set_all a m p = (a <- for_ (blocks_in (csize c)) 0 (fun b (a : array) => encode_array W blkbits enc junk a b m (block_ptr (csize c) b p) (strides (sizes a))) a;
    Some (with_cache a (cache_clear (acache a))))).
  { unfold ZfpCache.set_all. rewrite (R_size _ _ _ H) at 1. rewrite each_block_eq by assumption. reflexivity. }
  unfold perform. rewrite E.
  destruct (set_all_loop p (csize c) m (R_dim _ _ _ H) F HV (blocks_in (csize c)) 0 a vs ltac:(lia) (R_size _ _ _ H) (R_shape _ _ _ H) (R_stream _ _ _ H) ltac:(lia)) as [(s & G1 & G2 & G3)|[G1 (b & G2 & G3)]];
    cbv zeta in G1; rewrite G1; cbn [bind].
  - set (c0 := from_memory (csize c) m p).
    destruct (compress_some rt (fun _ => true) (fun b => rec (array_block 0 m p (csize c) (contiguous 1 (csize c)) b)) c0) as (c1 & C1 & C2 & C3 & C4).
    { intros b Hb _. unfold CacheSpec.rounded, c0. rewrite memory_padded. apply G3. exact Hb. }
    rewrite C1. cbn [bind]. change (csize c0) with (csize c) in *. split; [exact C2|]. eexists. exists (array_block 0 m p (csize c) (contiguous 1 (csize c))). split; [reflexivity|].
    constructor; rewrite ?C2; try apply H.
    + apply (clear_ok _ _ _ _ _ _ (R_cache _ _ _ H)).
    + exact G2.
    + intros cs Hc. destruct (C3 cs Hc) as [_ X]. exact X.
    + intros b i w _ Hh. elim (empty_holds _ b i w (cleared_tag (acache a)) Hh).
    + intros b Hb _. rewrite C4. split; [apply andb_false_r|]. intros cs Hc. destruct (C3 cs (proj1 Hc)) as [X Y]. cbv zeta in X, Y. rewrite X, Y. reflexivity.
  - rewrite (compress_none rt (fun _ => true) (from_memory (csize c) m p) b); [reflexivity|exact G2|reflexivity|].
    unfold CacheSpec.rounded. rewrite memory_padded. exact G3.
Qed.

(** *** A new array *)
Lemma zero_store n : (W * (n * blkbits / W) = n * blkbits)%nat.
Proof. destruct HW as [W0 _]. assert (E : (blkbits = W * (blkbits / W))%nat) by (pose proof (Nat.div_mod blkbits W ltac:(lia)); lia). rewrite E at 1 2.
  replace (n * (W * (blkbits / W)))%nat with (n * (blkbits / W) * W)%nat by lia. rewrite Nat.div_mul by lia. lia. Qed.
Lemma zero_bits n : membits W (repeat 0 n) = repeat false (W * n).
Proof.
  induction n as [|n IH]; [rewrite Nat.mul_0_r; reflexivity|]. unfold membits in *. cbn [repeat flat_map]. rewrite IH. replace (W * Datatypes.S n)%nat with (W + W * n)%nat by lia. rewrite repeat_app. f_equal.
  clear. induction W as [|w IH]; [reflexivity|]. cbn. f_equal. exact IH.
Qed.
Lemma new_ok k n ns : array_size d ns -> cache_ok n k -> R (resize W blkbits k ns) (zeros ns) (fun _ => repeat 0 (4 ^ d)).
Proof.
  intros HA HK. destruct zero_ok as (Z1 & Z2 & Z3). destruct HA as (A1 & A2 & A3). constructor; try reflexivity.
  - split; [exact A1|split; assumption].
  - apply (clear_ok _ _ _ _ _ _ HK).
  - unfold resize. cbn [astream csize zeros]. rewrite blocks_eq by lia. split; [reflexivity|]. change (mem (stream_open (repeat 0 (blocks_in ns * blkbits / W)))) with (repeat 0 (blocks_in ns * blkbits / W)). rewrite repeat_length, zero_store. split.
    + apply Forall_forall. intros x X. apply repeat_spec in X. subst x. pose proof (Z.pow_pos_nonneg 2 (Z.of_nat W) ltac:(lia) ltac:(lia)). lia.
    + split; [reflexivity|]. intros b Hb. split; [exact Z1|]. rewrite Z2. unfold block_bits. rewrite zero_bits, zero_store.
      replace (blocks_in ns * blkbits)%nat with (b * blkbits + (blkbits + (blocks_in ns - b - 1) * blkbits))%nat by nia.
      rewrite !repeat_app. rewrite skipn_app, skipn_all2, repeat_length, Nat.sub_diag by (rewrite repeat_length; lia). cbn [skipn app].
      rewrite firstn_app, repeat_length, Nat.sub_diag, firstn_O, app_nil_r, firstn_all2 by (rewrite repeat_length; lia). reflexivity.
  - intros cs Hc. rewrite Z3. cbn [zeros saved pick]. symmetry. rewrite (nth_error_nth' _ 0); [f_equal; apply nth_repeat|].
    rewrite repeat_length. cbn [zeros csize] in Hc. rewrite <- A1, <- (inside_length _ _ Hc). apply place_of_lt.
  - intros b i w _ Hh. elim (empty_holds _ b i w (cleared_tag k) Hh).
  - intros b _ _. split; reflexivity.
Qed.
Lemma sim_resize a c vs ns : R a c vs -> array_size d ns -> sim a c (Resize ns).
Proof.
  intros H HA. eexists. split; [apply allow_resize|]. split; [reflexivity|]. eexists. eexists. split; [reflexivity|]. apply (new_ok _ _ ns HA (R_cache _ _ _ H)).
Qed.
Lemma new_array_ok n ns : array_size d ns -> line_count size n ns <= 2 ^ 31 -> exists vs, R (new_array W blkbits junk size n ns) (zeros ns) vs.
Proof.
  intros HA HN. eexists. apply (new_ok _ 0%nat ns HA). apply resize_ok; [exact HJ|]. split; [apply line_count_pos|exact HN].
Qed.

(** *** Any operation, any history *)
Lemma sim_op a c vs o : R a c vs -> valid_op val size d (csize c) o -> sim a c o.
Proof.
  intros H V. destruct o; cbn [valid_op] in V.
  - apply (sim_get _ _ _ _ H V).
  - apply (sim_update _ _ _ _ _ H (proj1 V) (proj2 V)).
  - apply (sim_flat a c vs i Get (GetFlat i) H V); try reflexivity.
    + intros cs [F _]. apply (sim_get _ _ _ _ H F).
    + intros cs r F A. apply (allow_get_flat _ _ _ _ _ _ cs); assumption.
  - destruct V as [V1 V2]. apply (sim_flat a c vs i (fun cs => Update cs f) (UpdateFlat i f) H V1); try reflexivity.
    + intros cs [F _]. apply (sim_update _ _ _ _ _ H F V2).
    + intros cs r F A. apply (allow_update_flat _ _ _ _ _ _ cs); assumption.
  - apply (sim_flush _ _ _ H).
  - apply (sim_clear _ _ _ H).
  - apply (sim_cache_size _ _ _ _ H V).
  - apply (sim_get_all _ _ _ _ _ H V).
  - apply (sim_set_all _ _ _ _ _ H (proj1 V) (proj2 V)).
  - apply (sim_resize _ _ _ _ H V).
  - apply (sim_data _ _ _ H).
Qed.

Theorem run_history os : forall a c vs, R a c vs -> valid_ops val size d (csize c) os ->
  history W blkbits rt dec c os (option_map fst (run two_way fast_hash W blkbits enc dec junk size a os)).
Proof.
  induction os as [|o os IH]; intros a c vs H V; cbn [run]; [constructor|]. destruct V as [V1 V2].
  destruct (sim_op a c vs o H V1) as (r & A & S). destruct r as [[y c']|].
  - destruct S as (E & a' & vs' & P & H'). rewrite P. cbn [bind]. rewrite <- E in V2. specialize (IH a' c' vs' H' V2).
    replace (option_map fst _) with (option_map (cons y) (option_map fst (run two_way fast_hash W blkbits enc dec junk size a' os))) by (destruct (run _ _ _ _ _ _ _ _ a' os) as [[ys a2]|]; reflexivity).
    apply (step _ _ _ _ _ _ _ _ _ _ A IH).
  - rewrite S. cbn [bind option_map]. apply undefined. exact A.
Qed.
End Sim.
