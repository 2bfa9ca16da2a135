(** Command line and parameter file parsing of every program: utils/getpars.c and
    utils/atopkge.c (the same two files are copied into every program's directory).

    A C string is the list of its characters without the terminating NUL.  [None] stands for
    a failed call of err() (program exit) or for undefined behaviour, as noted. *)
From Coq Require Import Ascii String.
From Coq Require Import ZArith List Bool Arith Lia.
Import ListNotations.
Local Open Scope Z_scope.

Definition cstring := list ascii.
Definition str (s : string) : cstring := list_ascii_of_string s.
Definition NUL : ascii := Ascii.zero.
Definition TAB : ascii := ascii_of_nat 9.
Definition LF : ascii := ascii_of_nat 10.
Definition SPC : ascii := ascii_of_nat 32.
Definition QUOTE : ascii := ascii_of_nat 34.
Definition COMMA : ascii := ascii_of_nat 44.
Definition EQUAL : ascii := ascii_of_nat 61.

(** iswhite, getpars.c:555 *)
Definition iswhite (c : ascii) : bool := (Ascii.eqb c SPC || Ascii.eqb c TAB || Ascii.eqb c LF)%bool.

(** white2null, getpars.c:562-593.  [l] is str[1..len-1]; [last] is str[len], which the
    second loop reads ahead and the function finally overwrites by NUL.  First loop: whites
    outside quotes become NUL; a word is counted at each non-white outside quotes behind a NUL. *)
Fixpoint w2n_loop1 (inquote : bool) (prev : ascii) (l : cstring) : cstring * nat :=
  match l with
  | [] => ([], 0%nat)
  | c :: r =>
      let inquote := if Ascii.eqb c QUOTE then negb inquote else inquote in
      let '(c', k) :=
        if inquote then (c, 0%nat)
        else if iswhite c then (NUL, 0%nat)
        else if Ascii.eqb prev NUL then (c, 1%nat) else (c, 0%nat) in
      let '(r', n) := w2n_loop1 inquote c' r in (c' :: r', (k + n)%nat)
  end.
(** second loop: inside quotes every character moves one place to the front, over the
    opening quote; in front of the closing quote two NULs are stored *)
Fixpoint w2n_loop2 (inquote : bool) (l : cstring) (last : ascii) : cstring :=
  match l with
  | [] => []
  | c :: r =>
      let inquote := if Ascii.eqb c QUOTE then negb inquote else inquote in
      if inquote then
        if Ascii.eqb (hd last r) QUOTE then
          NUL :: match r with [] => [] | _ :: r' => NUL :: w2n_loop2 false r' last end
        else hd last r :: w2n_loop2 true r last
      else c :: w2n_loop2 false r last
  end.
(** the buffer str[1..len] afterwards and the count; the file content is never NUL terminated
    inside, [pf] = str[1..len] before *)
Definition white2null (pf : cstring) : cstring * nat :=
  match pf with
  | [] => ([], 0%nat)
  | _ =>
      let '(l, count) := w2n_loop1 false NUL (removelast pf) in
      (w2n_loop2 false l (List.last pf NUL) ++ [NUL], count)
  end.

(** the C string at the front of a buffer *)
Fixpoint cstr (l : cstring) : cstring :=
  match l with [] => [] | c :: r => if Ascii.eqb c NUL then [] else c :: cstr r end.

(** getpars.c:513-519: a word starts at each j < pflen with str[j] and not str[j-1].  The list
    is str[1..pflen], so the last position is not considered (it is NUL anyway). *)
Fixpoint word_starts (prev : ascii) (l : cstring) : list cstring :=
  match l with
  | [] => []
  | [_] => []
  | c :: r =>
      (if negb (Ascii.eqb c NUL) && Ascii.eqb prev NUL then [cstr (c :: r)] else []) ++ word_starts c r
  end.

(** strchr(s, '='), getpars.c:602-607: name and value, or None for an argument without '=' *)
Fixpoint split_eq (s : cstring) : option (cstring * cstring) :=
  match s with
  | [] => None
  | c :: r =>
      if Ascii.eqb c EQUAL then Some ([], r)
      else match split_eq r with Some (n, v) => Some (c :: n, v) | None => None end
  end.

(** tabulate, getpars.c:596-617 *)
Fixpoint tabulate (argv : list cstring) : list (cstring * cstring) :=
  match argv with
  | [] => []
  | a :: r => match split_eq a with Some p => p :: tabulate r | None => tabulate r end
  end.

(** getpfname, getpars.c:540-552: the last argument par=... with a non-empty name;
    [argv] is xargv[1..] *)
Fixpoint pfname_from (argv : list cstring) : option cstring :=
  match argv with
  | [] => None
  | a :: r =>
      match pfname_from r with
      | Some f => Some f
      | None => if list_eq_dec ascii_dec (firstn 4 a) (str "par=") then
                  match skipn 4 a with [] => None | f => Some f end
                else None
      end
  end.

(** getparinit, getpars.c:439-536.  [fs] gives the contents of readable files; fopen of
    another name returns NULL, which fseek dereferences (None).  targv has room for the words
    white2null counted plus the arguments: storing more words overruns it, storing fewer
    leaves NULL pointers for tabulate (None in both cases). *)
Definition getparinit (fs : cstring -> option cstring) (argv : list cstring) : option (list (cstring * cstring)) :=
  match pfname_from argv with
  | None => Some (tabulate argv)
  | Some f =>
      match fs f with
      | None => None
      | Some pf =>
          let '(buf, pfargc) := white2null pf in
          let words := word_starts NUL buf in
          if (length words =? pfargc)%nat then Some (tabulate (words ++ argv)) else None
      end
  end.

(** getparindex, getpars.c:420-436, on a table; n = 0 means the last occurrence *)
Definition same_name (a b : cstring) : bool := if list_eq_dec ascii_dec a b then true else false.
Fixpoint index_last (i : nat) (name : cstring) (t : list (cstring * cstring)) (found : Z) : Z :=
  match t with
  | [] => found
  | (a, _) :: r => index_last (S i) name r (if same_name name a then Z.of_nat i else found)
  end.
Fixpoint index_nth (i : nat) (n : Z) (name : cstring) (t : list (cstring * cstring)) : Z :=
  match t with
  | [] => -1
  | (a, _) :: r =>
      if same_name name a then (if n - 1 =? 0 then Z.of_nat i else index_nth (S i) (n - 1) name r)
      else index_nth (S i) n name r
  end.
Definition getparindex (n : Z) (name : cstring) (t : list (cstring * cstring)) : Z :=
  if n =? 0 then index_last 0 name t (-1) else index_nth 0 n name t.
Definition asciival (t : list (cstring * cstring)) (i : Z) : cstring := snd (nth (Z.to_nat i) t ([], [])).

(** the value loop of getnpar, getpars.c:321-371, for a conversion [conv] of the text at aval;
    the inner while at 368-370 advances to the next value *)
Fixpoint next_value (aval : cstring) : cstring :=
  match aval with
  | [] => []
  | c :: r => if Ascii.eqb c COMMA then r else match r with [] => [] | _ => next_value r end
  end.
Fixpoint values {A} (conv : cstring -> option A) (fuel : nat) (aval : cstring) : option (list A) :=
  match aval with
  | [] => Some []
  | _ =>
      match fuel with
      | O => None
      | S k =>
          match conv aval with
          | None => None
          | Some v => match values conv k (next_value aval) with Some vs => Some (v :: vs) | None => None end
          end
      end
  end.

(** strchop, getpars.c:628-643 *)
Fixpoint strchop (s : cstring) : cstring :=
  match s with [] => [] | c :: r => if Ascii.eqb c COMMA then [] else c :: strchop r end.

(** ccount, getpars.c:620-626 *)
Fixpoint ccount (c : ascii) (s : cstring) : Z :=
  match s with [] => 0 | x :: r => (if Ascii.eqb x c then 1 else 0) + ccount c r end.

(** ** The package as a state machine: xargv[1..] and the table once it is built *)
Record state := mk_state { xargv : list cstring; table : option (list (cstring * cstring)) }.

(** initargs, getpars.c:201-211 *)
Definition initargs (argv : list cstring) : state := mk_state argv None.

(** "if (!tabled) getparinit()" *)
Definition tabled (fs : cstring -> option cstring) (s : state) : option (list (cstring * cstring) * state) :=
  match table s with
  | Some t => Some (t, s)
  | None => match getparinit fs (xargv s) with Some t => Some (t, mk_state (xargv s) (Some t)) | None => None end
  end.

(** getnpar with a string type, getpars.c:300-318: number of values found, the string *)
Definition getnparstring (fs : cstring -> option cstring) (n : Z) (name : cstring) (s : state)
  : option (Z * option cstring * state) :=
  match xargv s with
  | [] => Some (0, None, s)
  | _ =>
      match tabled fs s with
      | None => None
      | Some (t, s) =>
          let i := getparindex n name t in
          if i <? 0 then Some (0, None, s) else Some (1, Some (asciival t i), s)
      end
  end.

(** getnpar with the other types, getpars.c:300-373: number of values, values stored *)
Definition getnpar {A} (conv : cstring -> option A) (fs : cstring -> option cstring) (n : Z) (name : cstring) (s : state)
  : option (Z * list A * state) :=
  match xargv s with
  | [] => Some (0, [], s)
  | _ =>
      match tabled fs s with
      | None => None
      | Some (t, s) =>
          let i := getparindex n name t in
          if i <? 0 then Some (0, [], s)
          else match values conv (length (asciival t i)) (asciival t i) with
               | Some vs => Some (Z.of_nat (length vs), vs, s)
               | None => None
               end
      end
  end.

(** countparname, getpars.c:382-391 *)
Definition countparname (fs : cstring -> option cstring) (name : cstring) (s : state) : option (Z * state) :=
  match xargv s with
  | [] => Some (0, s)
  | _ =>
      match tabled fs s with
      | None => None
      | Some (t, s) => Some (fold_right (fun '(a, _) k => (if same_name name a then 1 else 0) + k) 0 t, s)
      end
  end.

(** countnparval, getpars.c:394-405 *)
Definition countnparval (fs : cstring -> option cstring) (n : Z) (name : cstring) (s : state) : option (Z * state) :=
  match xargv s with
  | [] => Some (0, s)
  | _ =>
      match tabled fs s with
      | None => None
      | Some (t, s) =>
          let i := getparindex n name t in
          if 0 <=? i then Some (ccount COMMA (asciival t i) + 1, s) else Some (0, s)
      end
  end.

(** ** atopkge.c.  strtol and strtoul (C library, base 10, 64-bit long): leading white space
    of the C locale, an optional sign, digits; result and errno (true = ERANGE). *)
Definition is_space (c : ascii) : bool :=
  let n := nat_of_ascii c in ((n =? 32) || (9 <=? n) && (n <=? 13))%nat%bool.
Definition digit (c : ascii) : option Z :=
  let n := nat_of_ascii c in if ((48 <=? n) && (n <=? 57))%nat%bool then Some (Z.of_nat n - 48) else None.
Fixpoint skip_space (s : cstring) : cstring :=
  match s with c :: r => if is_space c then skip_space r else s | [] => [] end.
Fixpoint number_from (acc : Z) (s : cstring) : Z :=
  match s with
  | [] => acc
  | c :: r => match digit c with Some d => number_from (acc * 10 + d) r | None => acc end
  end.
Definition MINUS : ascii := ascii_of_nat 45.
Definition PLUS : ascii := ascii_of_nat 43.
Definition sign_number (s : cstring) : bool * Z :=
  match skip_space s with
  | [] => (false, 0)
  | c :: r =>
      if Ascii.eqb c MINUS then (true, number_from 0 r)
      else if Ascii.eqb c PLUS then (false, number_from 0 r) else (false, number_from 0 (c :: r))
  end.
Definition strtol (s : cstring) (errno : bool) : Z * bool :=
  let '(neg, n) := sign_number s in
  let v := if neg then - n else n in
  if v <? - 2 ^ 63 then (- 2 ^ 63, true) else if 2 ^ 63 <=? v then (2 ^ 63 - 1, true) else (v, errno).
Definition strtoul (s : cstring) (errno : bool) : Z * bool :=
  let '(neg, n) := sign_number s in
  if 2 ^ 64 <=? n then (2 ^ 64 - 1, true) else ((if neg then - n else n) mod 2 ^ 64, errno).

(** eatoh, eatou, eatoi, eatop, eatol, eatov: atopkge.c:145-213.  None: err() was called.
    errno is not reset before the call. *)
Definition eatoh (errno : bool) (s : cstring) : option Z :=
  let '(n, e) := strtol s errno in if ((32767 <? n) || (n <? -32768) || e)%bool then None else Some n.
Definition eatou (errno : bool) (s : cstring) : option Z :=
  let '(n, e) := strtoul s errno in if ((65535 <? n) || e)%bool then None else Some n.
Definition eatoi (errno : bool) (s : cstring) : option Z :=
  let '(n, e) := strtol s errno in if ((2 ^ 31 - 1 <? n) || (n <? - 2 ^ 31) || e)%bool then None else Some n.
Definition eatop (errno : bool) (s : cstring) : option Z :=
  let '(n, e) := strtoul s errno in if ((2 ^ 32 - 1 <? n) || e)%bool then None else Some n.
Definition eatol (errno : bool) (s : cstring) : option Z :=
  let '(n, e) := strtol s errno in if e then None else Some n.
Definition eatov (errno : bool) (s : cstring) : option Z :=
  let '(n, e) := strtoul s errno in if e then None else Some n.
