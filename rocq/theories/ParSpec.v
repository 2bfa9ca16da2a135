(** What a user writes on a command line or in a parameter file, and what it means. *)
From Coq Require Import Ascii String.
From Coq Require Import ZArith List Bool Arith.
Import ListNotations.

Definition text := list ascii.
Definition lit (s : string) : text := list_ascii_of_string s.
Local Notation "'chr' n" := (ascii_of_nat n) (at level 1).

(** an argument: name=value, or a word without "=" *)
Inductive arg := Setting (name value : text) | Other (word : text).
Definition written (a : arg) : text := match a with Setting n v => n ++ [chr 61] ++ v | Other w => w end.
Definition arg_ok (a : arg) : Prop :=
  match a with Setting n _ => ~ In (chr 61) n | Other w => ~ In (chr 61) w end.

(** the values given to a name, in order *)
Definition is_name (name : text) (a : arg) : list text :=
  match a with Setting n v => if list_eq_dec ascii_dec n name then [v] else [] | Other _ => [] end.
Definition occurrences (name : text) (args : list arg) : list text := flat_map (is_name name) args.
Definition last_of {A} (l : list A) : option A := match rev l with [] => None | x :: _ => Some x end.

(** n = 0 asks for the last occurrence, n > 0 for the n-th *)
Definition asked (n : Z) (l : list text) : option text :=
  if (n =? 0)%Z then last_of l else if (0 <? n)%Z then nth_error l (Z.to_nat (n - 1)) else None.

(** parameter files: words separated by blanks, tabs and newlines, the last one followed by
    one as well; a value may be quoted and then contain anything but quotes *)
Definition white (c : ascii) : Prop := c = chr 32 \/ c = chr 9 \/ c = chr 10.
Definition plain (c : ascii) : Prop := ~ white c /\ c <> chr 34 /\ c <> chr 0.
Definition in_quotes (c : ascii) : Prop := c <> chr 34 /\ c <> chr 0.
Inductive word_of : arg -> text -> Prop :=
| w_plain a : written a <> [] -> Forall plain (written a) -> word_of a (written a)
| w_quoted n v : Forall plain n -> Forall in_quotes v ->
    word_of (Setting n v) (n ++ [chr 61; chr 34] ++ v ++ [chr 34]).
Inductive file_of : list arg -> text -> Prop :=
| f_end : file_of [] []
| f_white c l t : white c -> file_of l t -> file_of l (c :: t)
| f_word a w c l t : word_of a w -> white c -> file_of l t -> file_of (a :: l) (w ++ c :: t).

(** all arguments that count: those of the parameter file named last on the command line,
    then those of the command line *)
Definition named_file (args : list arg) : option text :=
  last_of (filter (fun v => match v with [] => false | _ => true end) (occurrences (lit "par") args)).
Definition sees (files : text -> option text) (args all : list arg) : Prop :=
  match named_file args with
  | None => all = args
  | Some f => exists content fargs, files f = Some content /\ file_of fargs content /\
                Forall arg_ok fargs /\ all = fargs ++ args
  end.

(** comma separated values *)
Fixpoint commas (pieces : list text) : text :=
  match pieces with [] => [] | [p] => p | p :: r => p ++ [chr 44] ++ commas r end.

(** decimal numbers *)
Definition digits (ds : list nat) : text := map (fun d => chr (48 + d)) ds.
Definition decimal (ds : list nat) : Z := fold_left (fun a d => a * 10 + Z.of_nat d)%Z ds 0%Z.
Inductive sign := no_sign | plus | minus.
Definition sign_text (s : sign) : text := match s with no_sign => [] | plus => [chr 43] | minus => [chr 45] end.
Definition signed (s : sign) (z : Z) : Z := match s with minus => (- z)%Z | _ => z end.
Definition not_digit_first (t : text) : Prop :=
  match t with [] => True | c :: _ => ~ (48 <= nat_of_ascii c <= 57)%nat end.
