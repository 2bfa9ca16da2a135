(** C25-C28: parameters from the command line and from parameter files. *)
From Coq Require Import Ascii String.
From Coq Require Import ZArith List Bool Arith Lia.
From Verif Require Import ListAux ParSpec GetPars GetParsProofs.
Import ListNotations.
Local Open Scope Z_scope.

(** * C25 *)

(** the answer to a string query *)
Definition answer (v : option text) : Z * option text :=
  match v with Some s => (1, Some s) | None => (0, None) end.

(** every command line is described by some [args] *)
Theorem C25_every_command_line (argv : list text) : exists args, Forall arg_ok args /\ map written args = argv.
Proof.
  induction argv as [|w argv (args & H & <-)]; [exists []; auto|]. destruct (arg_of w) as (a & Ha & <-).
  exists (a :: args). auto.
Qed.
Print Assumptions C25_every_command_line.

Lemma query_spec fs args all (n : Z) (name : text) : args <> [] -> Forall arg_ok args -> sees fs args all -> exists s,
  tabled fs (initargs (map written args)) = Some (pairs all, s).
Proof. intros N A S. unfold tabled. cbn [table initargs xargv]. rewrite (init_table fs args all A S). eauto. Qed.

(** A string query for the n-th (n = 0: the last) setting of a name returns exactly that
    setting's value; there is none exactly if there is no such setting. *)
Theorem C25_lookup fs args all n name :
  args <> [] -> Forall arg_ok args -> sees fs args all ->
  exists s, getnparstring fs n name (initargs (map written args)) =
            Some (answer (asked n (occurrences name all)), s).
Proof.
  intros N A S. unfold getnparstring. cbn [xargv initargs]. destruct args as [|a0 args0] eqn:E; [congruence|]. rewrite <- E in *.
  destruct (map written args) as [|x y] eqn:M; [subst; discriminate|]. rewrite <- M.
  destruct (query_spec fs args all n name N A S) as (s & T). change {| xargv := map written args; table := None |} with (initargs (map written args)).
  rewrite T. exists s. pose proof (getparindex_spec n name (pairs all)) as H. rewrite vals_pairs in H.
  destruct (asked n (occurrences name all)) as [v|].
  - destruct H as (j & -> & H2). destruct (Z.ltb_spec (Z.of_nat j) 0); [lia|]. rewrite H2. reflexivity.
  - rewrite H. reflexivity.
Qed.
Print Assumptions C25_lookup.

Theorem C25_count fs args all name :
  args <> [] -> Forall arg_ok args -> sees fs args all ->
  exists s, countparname fs name (initargs (map written args)) = Some (Z.of_nat (length (occurrences name all)), s).
Proof.
  intros N A S. unfold countparname. cbn [xargv initargs]. destruct args as [|a0 args0] eqn:E; [congruence|]. rewrite <- E in *.
  destruct (map written args) as [|x y] eqn:M; [subst; discriminate|]. rewrite <- M.
  destruct (query_spec fs args all 0 name N A S) as (s & T). change {| xargv := map written args; table := None |} with (initargs (map written args)).
  rewrite T. exists s. rewrite count_vals, vals_pairs. reflexivity.
Qed.
Print Assumptions C25_count.

(** a setting on the command line wins over every setting in the parameter file, and the last
    one on the command line over the earlier ones *)
Theorem C25_command_line_wins fs before name value after all :
  let args := before ++ [Setting name value] ++ after in
  Forall arg_ok args -> sees fs args all -> occurrences name after = [] ->
  exists s, getnparstring fs 0 name (initargs (map written args)) = Some (1, Some value, s).
Proof.
  intros args A S H. destruct (C25_lookup fs args all 0 name) as (s & E); [unfold args; destruct before; discriminate|exact A|exact S|].
  exists s. rewrite E. enough (asked 0 (occurrences name all) = Some value) as -> by reflexivity. cbn.
  assert (exists pre, occurrences name all = pre ++ occurrences name args) as (pre & ->).
  { unfold sees in S. destruct (named_file args).
    - destruct S as (c & fa & _ & _ & _ & ->). exists (occurrences name fa). unfold occurrences. apply flat_map_app.
    - subst all. exists []. reflexivity. }
  unfold args, occurrences. rewrite !flat_map_app. fold (occurrences name after). rewrite H. cbn [flat_map is_name app].
  destruct (list_eq_dec ascii_dec name name); [|congruence]. rewrite !app_nil_r, !last_of_app. reflexivity.
Qed.
Print Assumptions C25_command_line_wins.

(** without arguments nothing is set, and no parameter file is looked for *)
Theorem C25_no_arguments fs n name :
  getnparstring fs n name (initargs []) = Some (0, None, initargs []) /\
  countparname fs name (initargs []) = Some (0, initargs []).
Proof. split; reflexivity. Qed.
Print Assumptions C25_no_arguments.

(** Queries neither disturb each other nor remember an earlier command line: after any history
    of initialisations and queries, every query answers what it answers right behind the last
    initialisation. *)
Inductive call := Init (argv : list text) | Get (n : Z) (name : text) | Values (n : Z) (name : text)
  | CountName (name : text) | CountVal (n : Z) (name : text).
Definition perform (fs : text -> option text) (c : call) (s : state) : option state :=
  match c with
  | Init argv => Some (initargs argv)
  | Get n name => option_map snd (getnparstring fs n name s)
  | Values n name => option_map snd (getnpar (fun t => Some (strchop t)) fs n name s)
  | CountName name => option_map snd (countparname fs name s)
  | CountVal n name => option_map snd (countnparval fs n name s)
  end.
Fixpoint history (fs : text -> option text) (h : list call) (s : state) : option state :=
  match h with [] => Some s | c :: r => match perform fs c s with Some s => history fs r s | None => None end end.
Fixpoint last_init (h : list call) : option (list text) :=
  match h with [] => None | c :: r => match last_init r with Some a => Some a | None => match c with Init a => Some a | _ => None end end end.
Lemma history_app fs a b s : history fs (a ++ b) s = match history fs a s with Some s' => history fs b s' | None => None end.
Proof. revert s. induction a as [|c a IH]; intros s; [reflexivity|]. cbn. destruct (perform fs c s); [apply IH|reflexivity]. Qed.

Definition fresh (fs : text -> option text) (argv : list text) (s : state) : Prop :=
  xargv s = argv /\ (table s = None \/ exists t, table s = Some t /\ getparinit fs argv = Some t).
Lemma tabled_fresh fs argv s t s' : fresh fs argv s -> tabled fs s = Some (t, s') -> fresh fs argv s' /\ getparinit fs argv = Some t.
Proof.
  unfold tabled, fresh. intros (X & T) H. destruct (table s) as [t0|] eqn:E.
  - destruct T as [T|(t1 & T & G)]; [discriminate|]. injection H as <- <-. injection T as <-. rewrite E. eauto 6.
  - rewrite X in H. destruct (getparinit fs argv) as [t0|] eqn:G; [|discriminate]. injection H as <- <-. cbn. eauto 6.
Qed.
Lemma tabled_same fs argv s : fresh fs argv s -> match tabled fs s, tabled fs (initargs argv) with
  | Some (t, _), Some (t', _) => t = t' | None, None => True | _, _ => False end.
Proof.
  intros F. destruct F as (X & T). unfold tabled. cbn [table initargs xargv]. destruct (table s) as [t|] eqn:E.
  - destruct T as [T|(t1 & T & G)]; [discriminate|]. rewrite G. congruence.
  - rewrite X. destruct (getparinit fs argv); auto.
Qed.
Ltac fresh_query F :=
  let X := fresh "X" in let T := fresh "T" in let G := fresh "G" in
  pose proof (proj1 F) as X;
  match type of F with fresh ?fs ?argv ?s =>
    destruct (xargv s) as [|x0 l0] eqn:?;
    [ | let t := fresh "t" in let s1 := fresh "s1" in destruct (tabled fs s) as [[t s1]|] eqn:T; [pose proof (proj1 (tabled_fresh fs argv s t s1 F T)) as G | ] ] end.
Lemma perform_fresh fs argv c s s' : fresh fs argv s -> perform fs c s = Some s' ->
  match c with Init a => fresh fs a s' | _ => fresh fs argv s' end.
Proof.
  intros F H. destruct c as [a|n name|n name|name|n name]; cbn [perform] in H.
  - injection H as <-. split; [reflexivity|left; reflexivity].
  - unfold getnparstring in H. fresh_query F; [injection H as <-; exact F| |discriminate].
    destruct (_ <? _) in H; injection H as <-; exact G.
  - unfold getnpar in H. fresh_query F; [injection H as <-; exact F| |discriminate].
    destruct (_ <? _) in H; [injection H as <-; exact G|]. destruct (values _ _ _) in H; [injection H as <-; exact G|discriminate].
  - unfold countparname in H. fresh_query F; [injection H as <-; exact F| |discriminate]. injection H as <-; exact G.
  - unfold countnparval in H. fresh_query F; [injection H as <-; exact F| |discriminate].
    destruct (_ <=? _) in H; injection H as <-; exact G.
Qed.
Lemma history_fresh fs h : forall s s', history fs h s = Some s' ->
  match last_init h with Some a => fresh fs a s' | None => forall argv, fresh fs argv s -> fresh fs argv s' end.
Proof.
  induction h as [|c h IH]; intros s s' H; [injection H as <-; cbn; auto|]. cbn [history] in H. destruct (perform fs c s) as [s1|] eqn:P; [|discriminate].
  specialize (IH s1 s' H). cbn [last_init]. destruct (last_init h) as [a|]; [exact IH|]. destruct c as [a|n name|n name|name|n name].
  - apply IH. injection P as <-. split; [reflexivity|left; reflexivity].
  - intros argv F. apply IH. exact (perform_fresh fs argv (Get n name) s s1 F P).
  - intros argv F. apply IH. exact (perform_fresh fs argv (Values n name) s s1 F P).
  - intros argv F. apply IH. exact (perform_fresh fs argv (CountName name) s s1 F P).
  - intros argv F. apply IH. exact (perform_fresh fs argv (CountVal n name) s s1 F P).
Qed.

Theorem C25_history fs h s s' argv : history fs h s = Some s' -> last_init h = Some argv ->
  forall A (conv : text -> option A) n name,
  option_map fst (getnparstring fs n name s') = option_map fst (getnparstring fs n name (initargs argv)) /\
  option_map fst (getnpar conv fs n name s') = option_map fst (getnpar conv fs n name (initargs argv)) /\
  option_map fst (countparname fs name s') = option_map fst (countparname fs name (initargs argv)) /\
  option_map fst (countnparval fs n name s') = option_map fst (countnparval fs n name (initargs argv)).
Proof.
  intros H L A conv n name. pose proof (history_fresh fs h s s' H) as F. rewrite L in F. pose proof (tabled_same fs argv s' F) as T.
  unfold getnparstring, getnpar, countparname, countnparval. rewrite (proj1 F). change (xargv (initargs argv)) with argv.
  destruct argv as [|x y] eqn:E; [auto|]. rewrite <- E in *.
  destruct (tabled fs s') as [[t1 s1]|], (tabled fs (initargs argv)) as [[t2 s2]|]; try contradiction; [|auto].
  subst t2. split; [|split; [|split]]; try reflexivity.
  - destruct (_ <? _); reflexivity.
  - destruct (_ <? _); [reflexivity|]. destruct (values _ _ _); reflexivity.
  - destruct (_ <=? _); reflexivity.
Qed.
Print Assumptions C25_history.

Definition ex_fs : text -> option text := fun f =>
  if list_eq_dec ascii_dec f (lit "p") then Some (lit "nt=3 file=""a b"" nt=4 " ) else None.
Definition ex_args : list arg := [Setting (lit "nt") (lit "7"); Setting (lit "par") (lit "p"); Other (lit "-v"); Setting (lit "nx") (lit "1,2,3")].
Definition ex_file : list arg := [Setting (lit "nt") (lit "3"); Setting (lit "file") (lit "a b"); Setting (lit "nt") (lit "4")].
Ltac not_in := let H := fresh in intros H; repeat (destruct H as [H|H]; [discriminate H|]); exact H.
Lemma ex_args_ok : Forall arg_ok ex_args /\ Forall arg_ok ex_file.
Proof. split; repeat constructor; cbn; not_in. Qed.
Ltac plain_text := cbn; repeat (apply Forall_cons; [unfold plain, in_quotes, white; intuition discriminate|]); apply Forall_nil.
Lemma ex_file_text : file_of ex_file (lit "nt=3 file=""a b"" nt=4 ").
Proof.
  apply (f_word (Setting (lit "nt") (lit "3")) (lit "nt=3") " "%char).
  - apply (w_plain (Setting (lit "nt") (lit "3"))); [discriminate|plain_text].
  - left. reflexivity.
  - apply (f_word (Setting (lit "file") (lit "a b")) (lit "file=""a b""") " "%char).
    + apply (w_quoted (lit "file") (lit "a b")); plain_text.
    + left. reflexivity.
    + apply (f_word (Setting (lit "nt") (lit "4")) (lit "nt=4") " "%char).
      * apply (w_plain (Setting (lit "nt") (lit "4"))); [discriminate|plain_text].
      * left. reflexivity.
      * apply f_end.
Qed.
Lemma ex_sees : sees ex_fs ex_args (ex_file ++ ex_args).
Proof. exists (lit "nt=3 file=""a b"" nt=4 "), ex_file. split; [reflexivity|]. split; [exact ex_file_text|]. split; [apply ex_args_ok|reflexivity]. Qed.
Example C25_nonvacuous :
  occurrences (lit "nt") (ex_file ++ ex_args) = [lit "3"; lit "4"; lit "7"] /\
  option_map fst (getnparstring ex_fs 0 (lit "nt") (initargs (map written ex_args))) = Some (1, Some (lit "7")) /\
  option_map fst (getnparstring ex_fs 2 (lit "nt") (initargs (map written ex_args))) = Some (1, Some (lit "4")) /\
  option_map fst (getnparstring ex_fs 0 (lit "file") (initargs (map written ex_args))) = Some (1, Some (lit "a b")) /\
  option_map fst (countparname ex_fs (lit "nt") (initargs (map written ex_args))) = Some 3.
Proof. vm_compute. conjs; reflexivity. Qed.
Example C25_history_nonvacuous :
  exists s, history ex_fs [Init [lit "nt=1"]; Get 0 (lit "nt"); Init [lit "nt=2"]; CountName (lit "nt")] (initargs []) = Some s /\
            option_map fst (getnparstring ex_fs 0 (lit "nt") s) = Some (1, Some (lit "2")).
Proof. eexists. split; [vm_compute; reflexivity|vm_compute; reflexivity]. Qed.

(** * C26 *)
Definition no_comma (t : text) : Prop := ~ In COMMA t.

(** the values a numeric or string query stores: the pieces between the commas, except an
    empty last one *)
Definition stored (pieces : list text) : list text :=
  match last_of pieces with Some [] => removelast pieces | _ => pieces end.
Fixpoint converted {A} (conv : text -> option A) (l : list text) : option (list A) :=
  match l with
  | [] => Some []
  | p :: r => match conv p, converted conv r with Some v, Some vs => Some (v :: vs) | _, _ => None end
  end.
(** a conversion that never looks beyond a comma *)
Definition stops_at_comma {A} (conv : text -> option A) : Prop := forall p r, no_comma p -> conv (p ++ [COMMA] ++ r) = conv p.

Lemma next_comma p r : no_comma p -> next_value (p ++ COMMA :: r) = r.
Proof.
  induction p as [|c p IH]; intros H; [reflexivity|]. cbn [app next_value]. destruct (aeqb_spec c COMMA) as [->|_]; [exfalso; apply H; left; reflexivity|].
  rewrite IH by (intros X; apply H; right; exact X). destruct p; reflexivity.
Qed.
Lemma next_end p : no_comma p -> next_value p = [].
Proof.
  induction p as [|c p IH]; intros H; [reflexivity|]. cbn [next_value]. destruct (aeqb_spec c COMMA) as [->|_]; [exfalso; apply H; left; reflexivity|].
  rewrite IH by (intros X; apply H; right; exact X). destruct p; reflexivity.
Qed.
Lemma values_fuel {A} (conv : text -> option A) : stops_at_comma conv -> forall pieces fuel,
  pieces <> [] -> Forall no_comma pieces -> (length (commas pieces) <= fuel)%nat ->
  values conv fuel (commas pieces) = converted conv (stored pieces).
Proof.
  intros ST. induction pieces as [|p pieces IH]; intros fuel N F L; [congruence|].
  destruct pieces as [|q pieces].
  - cbn [commas]. unfold stored, last_of. cbn [rev app]. destruct p as [|c p]; [destruct fuel; reflexivity|].
    destruct fuel as [|fuel]; [cbn in L; lia|]. unfold values; fold @values. rewrite (next_end (c :: p)) by exact (Forall_inv F).
    cbn [converted]. destruct (conv (c :: p)); [|reflexivity]. destruct fuel; reflexivity.
  - change (commas (p :: q :: pieces)) with (p ++ [COMMA] ++ commas (q :: pieces)) in *.
    assert (S0 : stored (p :: q :: pieces) = p :: stored (q :: pieces)).
    { unfold stored, last_of. change (rev (p :: q :: pieces)) with (rev (q :: pieces) ++ [p]).
      destruct (rev (q :: pieces)) as [|x y] eqn:R; [apply (f_equal (@length _)) in R; rewrite rev_length in R; discriminate|]. cbn [app].
      destruct x; reflexivity. }
    rewrite S0. destruct fuel as [|fuel]; [rewrite !app_length in L; cbn in L; lia|].
    assert (V : forall k l, l <> [] -> values conv (S k) l = match conv l with None => None | Some v => match values conv k (next_value l) with Some vs => Some (v :: vs) | None => None end end).
    { intros k l Hl. destruct l; [congruence|reflexivity]. }
    rewrite V by (destruct p; discriminate). rewrite (ST p _ (Forall_inv F)). cbn [app]. rewrite next_comma by exact (Forall_inv F).
    rewrite IH; [|discriminate|exact (Forall_inv_tail F)|rewrite !app_length in L; cbn in L |- *; lia].
    cbn [converted]. reflexivity.
Qed.
Lemma ccount_pieces pieces : pieces <> [] -> Forall no_comma pieces -> ccount COMMA (commas pieces) + 1 = Z.of_nat (length pieces).
Proof.
  assert (C0 : forall p, no_comma p -> ccount COMMA p = 0).
  { induction p as [|c p IH]; intros H; [reflexivity|]. cbn [ccount]. destruct (aeqb_spec c COMMA) as [->|_]; [exfalso; apply H; left; reflexivity|].
    rewrite IH; [reflexivity|]. intros X; apply H; right; exact X. }
  assert (CA : forall a b, ccount COMMA (a ++ b) = ccount COMMA a + ccount COMMA b).
  { induction a as [|c a IH]; intros b; [reflexivity|]. cbn [ccount app]. rewrite IH. lia. }
  induction pieces as [|p pieces IH]; intros N F; [congruence|]. destruct pieces as [|q pieces].
  - cbn [commas]. rewrite C0 by exact (Forall_inv F). reflexivity.
  - change (commas (p :: q :: pieces)) with (p ++ [COMMA] ++ commas (q :: pieces)). rewrite !CA, (C0 p) by exact (Forall_inv F).
    change (ccount COMMA [COMMA]) with 1. specialize (IH ltac:(discriminate) (Forall_inv_tail F)). cbn [length] in *. lia.
Qed.

(** every value text is a list of pieces between commas *)
Theorem C26_every_value (v : text) : exists pieces, pieces <> [] /\ Forall no_comma pieces /\ commas pieces = v.
Proof.
  induction v as [|c v (ps & N & F & <-)]; [exists [[]]; conjs; [discriminate|repeat constructor; intros []|reflexivity]|].
  destruct ps as [|p ps]; [congruence|]. destruct (ascii_dec c COMMA) as [->|Hc].
  - exists ([] :: p :: ps). conjs; [discriminate|constructor; [intros []|exact F]|reflexivity].
  - exists ((c :: p) :: ps). conjs; [discriminate| |destruct ps; reflexivity].
    constructor; [|exact (Forall_inv_tail F)]. intros [X|X]; [congruence|]. exact (Forall_inv F X).
Qed.
Print Assumptions C26_every_value.

(** countparval returns the number of pieces; a query stores the conversions of exactly these
    pieces (but not of an empty last one), and fails exactly if one of these conversions does *)
Theorem C26_values fs args all n name pieces :
  args <> [] -> Forall arg_ok args -> sees fs args all ->
  asked n (occurrences name all) = Some (commas pieces) -> pieces <> [] -> Forall no_comma pieces ->
  (exists s, countnparval fs n name (initargs (map written args)) = Some (Z.of_nat (length pieces), s)) /\
  (forall A (conv : text -> option A), stops_at_comma conv ->
     option_map fst (getnpar conv fs n name (initargs (map written args))) =
     option_map (fun vs => (Z.of_nat (length vs), vs)) (converted conv (stored pieces))).
Proof.
  intros N A S Q P F. unfold countnparval, getnpar. cbn [xargv initargs]. destruct args as [|a0 args0] eqn:E; [congruence|]. rewrite <- E in *.
  destruct (map written args) as [|x y] eqn:M; [subst; discriminate|]. rewrite <- M.
  destruct (query_spec fs args all n name N A S) as (s & T). change {| xargv := map written args; table := None |} with (initargs (map written args)).
  rewrite T. pose proof (getparindex_spec n name (pairs all)) as H. rewrite vals_pairs, Q in H. destruct H as (j & -> & H2). rewrite H2. split.
  - exists s. destruct (Z.leb_spec 0 (Z.of_nat j)); [|lia]. rewrite ccount_pieces by assumption. reflexivity.
  - intros B conv ST. destruct (Z.ltb_spec (Z.of_nat j) 0); [lia|]. rewrite (values_fuel conv ST) by (auto; lia).
    destruct (converted conv (stored pieces)); reflexivity.
Qed.
Print Assumptions C26_values.

Lemma converted_length {A} (conv : text -> option A) l vs : converted conv l = Some vs -> length vs = length l.
Proof.
  revert vs. induction l as [|p l IH]; intros vs H; cbn in H; [injection H as <-; reflexivity|].
  destruct (conv p); [|discriminate]. destruct (converted conv l) as [r|]; [|discriminate]. injection H as <-. cbn. rewrite (IH r eq_refl). reflexivity.
Qed.
Lemma stored_length pieces : pieces <> [] ->
  length (stored pieces) = (length pieces - match last_of pieces with Some [] => 1 | _ => 0 end)%nat.
Proof.
  intros H. unfold stored. destruct (last_of pieces) as [[|c p]|]; try lia.
  pose proof (f_equal (@length _) (app_removelast_last [] H)) as E. rewrite app_length in E. cbn in E. unfold text in *. lia.
Qed.

(** So an array of countparval elements is large enough for every query of that setting, and
    the query fills it unless the last piece is empty. *)
Theorem C26_room fs args all n name v :
  args <> [] -> Forall arg_ok args -> sees fs args all -> asked n (occurrences name all) = Some v ->
  forall A (conv : text -> option A) k vs s count s', stops_at_comma conv ->
  getnpar conv fs n name (initargs (map written args)) = Some (k, vs, s) ->
  countnparval fs n name (initargs (map written args)) = Some (count, s') ->
  k = Z.of_nat (length vs) /\ k <= count /\ (k = count <-> (v <> [] /\ last_of v <> Some COMMA)).
Proof.
  intros N A S Q B conv k vs s count s' ST G C. destruct (C26_every_value v) as (pieces & P & F & EV). rewrite <- EV in Q.
  destruct (C26_values fs args all n name pieces N A S Q P F) as [(s1 & H1) H2]. rewrite C in H1. injection H1 as H1 _.
  specialize (H2 B conv ST). rewrite G in H2. cbn [option_map fst] in H2. destruct (converted conv (stored pieces)) as [vs'|] eqn:CV; [|discriminate H2].
  cbn in H2. injection H2 as H2 H3. subst vs'. pose proof (converted_length conv _ _ CV) as L. rewrite (stored_length pieces P) in L.
  split; [exact H2|]. assert (LP : (0 < length pieces)%nat) by (destruct pieces; [congruence|cbn; lia]).
  assert (KEY : (exists p, last_of pieces = Some p /\ p <> []) <-> (v <> [] /\ last_of v <> Some COMMA)).
  { rewrite <- EV. clear -F P. induction pieces as [|p pieces IH]; [congruence|]. destruct pieces as [|q pieces].
    - cbn [commas]. unfold last_of at 1. cbn [rev app]. split.
      + intros (p' & H & H'). injection H as <-. split; [exact H'|]. unfold last_of. destruct (rev p) as [|c r] eqn:R; [discriminate|].
        intros X. injection X as ->. apply (Forall_inv F). rewrite (in_rev p), R. left. reflexivity.
      + intros (H & _). eauto.
    - change (commas (p :: q :: pieces)) with (p ++ [COMMA] ++ commas (q :: pieces)). rewrite !last_of_app. specialize (IH ltac:(discriminate) (Forall_inv_tail F)).
      assert (LL : last_of (p :: q :: pieces) = last_of (q :: pieces)).
      { change (p :: q :: pieces) with ([p] ++ (q :: pieces)). rewrite last_of_app. unfold last_of at 1 3. destruct (rev (q :: pieces)) eqn:R; [|reflexivity].
        apply (f_equal (@length _)) in R. rewrite rev_length in R. discriminate. }
      rewrite LL, IH. destruct (last_of (commas (q :: pieces))) as [c|] eqn:LC.
      + split; intros (H & H'); (split; [|exact H']); [destruct p; discriminate|]. intros X. rewrite X in LC. discriminate LC.
      + split; intros (H & H').
        * exfalso. apply H. unfold last_of in LC. destruct (rev (commas (q :: pieces))) eqn:R; [|discriminate].
          rewrite <- (rev_involutive (commas _)), R. reflexivity.
        * exfalso. apply H'. reflexivity. }
  destruct (last_of pieces) as [[|c p]|] eqn:LP2; rewrite ?LP2 in L.
  - split; [lia|]. split; [intros X; lia|]. intros X. apply KEY in X. destruct X as (p & H & H'). congruence.
  - split; [lia|]. split; [intros _; apply KEY; eexists; split; [reflexivity|discriminate]|lia].
  - exfalso. unfold last_of in LP2. destruct (rev pieces) eqn:R; [|discriminate]. apply (f_equal (@length _)) in R. rewrite rev_length in R. cbn in R. lia.
Qed.
Print Assumptions C26_room.

(** the conversions of the parser do stop at commas *)
Lemma strchop_stops : stops_at_comma (fun t => Some (strchop t)).
Proof.
  intros p r H. f_equal. induction p as [|c p IH]; [reflexivity|]. cbn [strchop app].
  destruct (aeqb_spec c COMMA) as [->|_]; [exfalso; apply H; left; reflexivity|]. f_equal. apply IH. intros X. apply H. right. exact X.
Qed.
Lemma number_stops p r : forall acc, number_from acc (p ++ COMMA :: r) = number_from acc p.
Proof. induction p as [|c p IH]; intros acc; [reflexivity|]. cbn [app number_from]. destruct (digit c); auto. Qed.
Lemma sign_number_stops p r : sign_number (p ++ COMMA :: r) = sign_number p.
Proof.
  unfold sign_number. assert (skip_space (p ++ COMMA :: r) = skip_space p ++ COMMA :: r) as ->.
  { induction p as [|c p IH]; [reflexivity|]. cbn [skip_space app]. destruct (is_space c); [exact IH|reflexivity]. }
  destruct (skip_space p) as [|c q]; [reflexivity|]. cbn [app]. rewrite number_stops. change (c :: q ++ COMMA :: r) with ((c :: q) ++ COMMA :: r).
  rewrite number_stops. reflexivity.
Qed.
Theorem C26_conversions_stop errno :
  stops_at_comma (fun t => Some (strchop t)) /\
  stops_at_comma (eatoi errno) /\ stops_at_comma (eatoh errno) /\ stops_at_comma (eatol errno) /\
  stops_at_comma (eatop errno) /\ stops_at_comma (eatou errno) /\ stops_at_comma (eatov errno).
Proof.
  split; [exact strchop_stops|].
  conjs; intros p r _; unfold eatoi, eatoh, eatol, eatop, eatou, eatov, strtol, strtoul; cbn [app]; rewrite sign_number_stops; reflexivity.
Qed.
Print Assumptions C26_conversions_stop.

(** the pieces themselves, for the type "string between commas" *)
Theorem C26_pieces pieces : Forall no_comma pieces -> converted (fun t => Some (strchop t)) pieces = Some pieces.
Proof.
  assert (C : forall p, no_comma p -> strchop p = p).
  { induction p as [|c p IH]; intros H; [reflexivity|]. cbn [strchop].
    destruct (aeqb_spec c COMMA) as [->|_]; [exfalso; apply H; left; reflexivity|]. f_equal. apply IH. intros X. apply H. right. exact X. }
  induction 1 as [|p l H F IH]; [reflexivity|]. cbn [converted]. rewrite IH, C by exact H. reflexivity.
Qed.
Print Assumptions C26_pieces.

Example C26_nonvacuous :
  asked 0 (occurrences (lit "nx") (ex_file ++ ex_args)) = Some (commas [lit "1"; lit "2"; lit "3"]) /\
  option_map fst (getnpar (eatoi false) ex_fs 0 (lit "nx") (initargs (map written ex_args))) = Some (3, [1; 2; 3]) /\
  option_map fst (countnparval ex_fs 0 (lit "nx") (initargs (map written ex_args))) = Some 3.
Proof. vm_compute. conjs; reflexivity. Qed.
(** the case in which the counts differ *)
Example C26_trailing_comma :
  option_map fst (getnpar (eatoi false) ex_fs 0 (lit "x") (initargs [lit "x=1,2,"])) = Some (2, [1; 2]) /\
  option_map fst (countnparval ex_fs 0 (lit "x") (initargs [lit "x=1,2,"])) = Some 3.
Proof. vm_compute. conjs; reflexivity. Qed.

(** * C27 *)

(** a parameter file of white-space separated words, the last one followed by white space, is
    taken over completely and in order, quoted values with the blanks they contain *)
Theorem C27_complete fs args f content fargs :
  args <> [] -> Forall arg_ok args -> Forall arg_ok fargs ->
  named_file args = Some f -> fs f = Some content -> file_of fargs content ->
  forall name n, exists s,
    getnparstring fs n name (initargs (map written args)) =
    Some (answer (asked n (occurrences name fargs ++ occurrences name args)), s).
Proof.
  intros N A FA NF C F name n. replace (occurrences name fargs ++ occurrences name args) with (occurrences name (fargs ++ args)) by apply flat_map_app.
  apply C25_lookup; [exact N|exact A|]. unfold sees. rewrite NF. exists content, fargs. auto.
Qed.
Print Assumptions C27_complete.

Example C27_nonvacuous :
  named_file ex_args = Some (lit "p") /\ ex_fs (lit "p") = Some (lit "nt=3 file=""a b"" nt=4 ") /\
  file_of ex_file (lit "nt=3 file=""a b"" nt=4 ").
Proof. conjs; [reflexivity|reflexivity|exact ex_file_text]. Qed.

(** If the file does not end in white space, its last character is lost. *)
Theorem C27_no_newline_refuted :
  exists fs argv, pfname_from argv = Some (lit "p") /\ fs (lit "p") = Some (lit "nt=120") /\
    option_map fst (getnparstring fs 0 (lit "nt") (initargs argv)) = Some (1, Some (lit "12")).
Proof. exists (fun _ => Some (lit "nt=120")), [lit "par=p"]. vm_compute. conjs; reflexivity. Qed.
Print Assumptions C27_no_newline_refuted.

(** A word that starts with a quote is stored although no room was counted for it. *)
Theorem C27_leading_quote_refuted :
  exists content, snd (white2null content) = 0%nat /\ word_starts NUL (fst (white2null content)) = [lit "x=1"] /\
    forall fs argv f, pfname_from argv = Some f -> fs f = Some content -> getparinit fs argv = None.
Proof.
  exists (lit """x=1"" "). conjs; try (vm_compute; reflexivity). intros fs argv f P C. unfold getparinit. rewrite P, C. reflexivity.
Qed.
Print Assumptions C27_leading_quote_refuted.

(** A parameter file that cannot be opened ends in a failure, never in silently unset
    parameters. *)
Theorem C27_missing_file fs argv f n name :
  pfname_from argv = Some f -> fs f = None -> getnparstring fs n name (initargs argv) = None.
Proof.
  intros P F. unfold getnparstring, tabled, getparinit. cbn [xargv initargs table]. destruct argv as [|a argv]; [discriminate|]. rewrite P, F. reflexivity.
Qed.
Print Assumptions C27_missing_file.

(** * C28 *)
Definition number_text (blanks : nat) (s : sign) (ds : list nat) (rest : text) : text :=
  repeat SPC blanks ++ sign_text s ++ digits ds ++ rest.
Definition number_ok (ds : list nat) (rest : text) : Prop :=
  ds <> [] /\ Forall (fun d => (d < 10)%nat) ds /\ not_digit_first rest.

Lemma digit_char d : (d < 10)%nat -> digit (ascii_of_nat (48 + d)) = Some (Z.of_nat d).
Proof. intros H. do 10 (destruct d as [|d]; [reflexivity|]). lia. Qed.
Lemma digit_none c : ~ (48 <= nat_of_ascii c <= 57)%nat -> digit c = None.
Proof.
  intros H. unfold digit. destruct (Nat.leb_spec 48 (nat_of_ascii c)); [|reflexivity]. destruct (Nat.leb_spec (nat_of_ascii c) 57); [lia|reflexivity].
Qed.
Lemma number_digits ds rest : Forall (fun d => (d < 10)%nat) ds -> not_digit_first rest -> forall acc,
  number_from acc (digits ds ++ rest) = fold_left (fun a d => a * 10 + Z.of_nat d) ds acc.
Proof.
  induction 1 as [|d ds H F IH]; intros R acc.
  - destruct rest as [|c rest]; [reflexivity|]. cbn [digits map app number_from fold_left]. rewrite digit_none by exact R. reflexivity.
  - cbn [digits map app number_from fold_left]. rewrite digit_char by exact H. apply IH. exact R.
Qed.
Lemma digit_not_sign d : (d < 10)%nat -> Ascii.eqb (ascii_of_nat (48 + d)) MINUS = false /\ Ascii.eqb (ascii_of_nat (48 + d)) PLUS = false /\
  is_space (ascii_of_nat (48 + d)) = false.
Proof. intros H. do 10 (destruct d as [|d]; [repeat split; reflexivity|]). lia. Qed.
Lemma sign_number_text blanks s ds rest : number_ok ds rest ->
  sign_number (number_text blanks s ds rest) = (match s with minus => true | _ => false end, decimal ds).
Proof.
  intros (N & F & R). unfold sign_number, number_text.
  assert (SK : forall l, skip_space (repeat SPC blanks ++ l) = skip_space l).
  { intros l. induction blanks as [|b IH]; [reflexivity|exact IH]. }
  rewrite SK. unfold decimal. destruct s.
  - cbn [sign_text app]. destruct ds as [|d ds]; [congruence|]. destruct (digit_not_sign d (Forall_inv F)) as (D1 & D2 & D3).
    cbn [digits map app skip_space]. rewrite D3, D1, D2. change (ascii_of_nat (48 + d) :: map (fun d : nat => ascii_of_nat (48 + d)) ds ++ rest) with (digits (d :: ds) ++ rest).
    rewrite number_digits by assumption. reflexivity.
  - change (skip_space (sign_text plus ++ digits ds ++ rest)) with (PLUS :: digits ds ++ rest). cbv iota.
    change (Ascii.eqb PLUS MINUS) with false. change (Ascii.eqb PLUS PLUS) with true. rewrite number_digits by assumption. reflexivity.
  - change (skip_space (sign_text minus ++ digits ds ++ rest)) with (MINUS :: digits ds ++ rest). cbv iota.
    change (Ascii.eqb MINUS MINUS) with true. rewrite number_digits by assumption. reflexivity.
Qed.
Lemma decimal_nonneg ds : 0 <= decimal ds.
Proof.
  unfold decimal. assert (forall a, 0 <= a -> 0 <= fold_left (fun a d => a * 10 + Z.of_nat d) ds a); [|auto with zarith].
  induction ds as [|d ds IH]; intros a H; [exact H|]. cbn. apply IH. lia.
Qed.
Definition between (lo hi z : Z) : bool := (lo <=? z) && (z <=? hi).
Ltac cases := repeat match goal with
  | |- context [?a <? ?b] => destruct (Z.ltb_spec a b)
  | |- context [?a <=? ?b] => destruct (Z.leb_spec a b) end.

(** Signed types: a written integer is returned exactly if it fits the type, otherwise the
    program stops with an error message. *)
Theorem C28_signed blanks s ds rest : number_ok ds rest ->
  let t := number_text blanks s ds rest in let z := signed s (decimal ds) in
  eatoh false t = (if between (-32768) 32767 z then Some z else None) /\
  eatoi false t = (if between (- 2 ^ 31) (2 ^ 31 - 1) z then Some z else None) /\
  eatol false t = (if between (- 2 ^ 63) (2 ^ 63 - 1) z then Some z else None).
Proof.
  intros OK t z. unfold eatoh, eatoi, eatol, strtol. unfold t. rewrite (sign_number_text blanks s ds rest OK).
  assert (E : (if match s with minus => true | _ => false end then - decimal ds else decimal ds) = z) by (unfold z; destruct s; reflexivity).
  rewrite E. unfold between. clearbody z. conjs; cases; cbn; cases; cbn; try reflexivity; lia.
Qed.
Print Assumptions C28_signed.

(** Unsigned types, for numbers without a minus sign. *)
Theorem C28_unsigned blanks s ds rest : number_ok ds rest -> s <> minus ->
  let t := number_text blanks s ds rest in let z := decimal ds in
  eatou false t = (if between 0 65535 z then Some z else None) /\
  eatop false t = (if between 0 (2 ^ 32 - 1) z then Some z else None) /\
  eatov false t = (if between 0 (2 ^ 64 - 1) z then Some z else None).
Proof.
  intros OK M t z. unfold eatou, eatop, eatov, strtoul. unfold t. rewrite (sign_number_text blanks s ds rest OK).
  pose proof (decimal_nonneg ds) as P. fold z in P |- *. clearbody z. replace (match s with minus => true | _ => false end) with false by (destruct s; congruence).
  unfold between. destruct (Z.leb_spec (2 ^ 64) z).
  - conjs; cases; cbn; try reflexivity; lia.
  - rewrite Z.mod_small by lia. conjs; cases; cbn; try reflexivity; lia.
Qed.
Print Assumptions C28_unsigned.

(** What the unsigned types do with a minus sign: they return 2^64 minus the number if that
    fits.  So negative numbers are not rejected. *)
Theorem C28_unsigned_minus blanks ds rest : number_ok ds rest -> 0 < decimal ds < 2 ^ 64 ->
  let t := number_text blanks minus ds rest in let w := 2 ^ 64 - decimal ds in
  eatou false t = (if between 0 65535 w then Some w else None) /\
  eatop false t = (if between 0 (2 ^ 32 - 1) w then Some w else None) /\
  eatov false t = Some w.
Proof.
  intros OK P t w. unfold eatou, eatop, eatov, strtoul. unfold t. rewrite (sign_number_text blanks minus ds rest OK).
  destruct (Z.leb_spec (2 ^ 64) (decimal ds)); [lia|].
  assert (E : - decimal ds mod 2 ^ 64 = w). { unfold w. symmetry. apply (Z.mod_unique_pos _ _ (-1)); lia. }
  rewrite E. assert (0 < w < 2 ^ 64) by (unfold w; lia). clearbody w. unfold between. conjs; cases; cbn; try reflexivity; lia.
Qed.
Print Assumptions C28_unsigned_minus.
Theorem C28_negative_unsigned_refuted :
  eatov false (lit "-1") = Some (2 ^ 64 - 1) /\ eatop false (lit "-18446744073709551615") = Some 1.
Proof. split; reflexivity. Qed.
Print Assumptions C28_negative_unsigned_refuted.

(** Text that is no number is taken as 0, and text behind a number is ignored. *)
Theorem C28_no_number_refuted : eatoi false (lit "abc") = Some 0 /\ eatoi false (lit "12abc") = Some 12 /\ eatoi false [] = Some 0.
Proof. conjs; reflexivity. Qed.
Print Assumptions C28_no_number_refuted.
Theorem C28_no_number t : sign_number t = (false, 0) ->
  eatoh false t = Some 0 /\ eatoi false t = Some 0 /\ eatol false t = Some 0 /\
  eatou false t = Some 0 /\ eatop false t = Some 0 /\ eatov false t = Some 0.
Proof. intros E. unfold eatoh, eatoi, eatol, eatou, eatop, eatov, strtol, strtoul. rewrite E. conjs; reflexivity. Qed.
Print Assumptions C28_no_number.

(** If an earlier library call left errno set, every number is rejected. *)
Theorem C28_stale_errno_refuted t :
  eatoh true t = None /\ eatoi true t = None /\ eatol true t = None /\
  eatou true t = None /\ eatop true t = None /\ eatov true t = None.
Proof.
  unfold eatoh, eatoi, eatol, eatou, eatop, eatov, strtol, strtoul. destruct (sign_number t) as [neg n].
  conjs; cases; rewrite ?orb_true_r; reflexivity.
Qed.
Print Assumptions C28_stale_errno_refuted.

Example C28_nonvacuous : number_ok [3; 2; 7; 6; 8]%nat [] /\
  eatoh false (number_text 1 minus [3; 2; 7; 6; 8]%nat []) = Some (-32768) /\
  eatoh false (number_text 0 no_sign [3; 2; 7; 6; 8]%nat []) = None /\
  eatoi false (number_text 2 plus [3; 2; 7; 6; 8]%nat (lit ",5")) = Some 32768.
Proof. split; [split; [discriminate|split; [repeat constructor|exact I]]|]. conjs; reflexivity. Qed.
