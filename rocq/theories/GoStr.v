(** * Go strings and the used parts of Go's standard library

    Go strings are byte sequences; they are modelled as lists of 8-bit characters.
    This file contains definitions only (the lemmas are in GoStrFacts.v).

    Simplification used everywhere: [strings.ToLower] is modelled on ASCII letters only
    (bytes >= 128 are left alone), and rune-wise functions work on bytes.  Where wiki2book compares a
    window of fixed byte length with an ASCII tag this is exact: a non-ASCII rune whose lower case is ASCII is
    longer than its lower case, so such a window never equals the tag. *)

From Coq Require Import Ascii String.
From Coq Require Import List Arith NArith ZArith Bool Lia.
From Coq Require DecimalString DecimalNat.
Import ListNotations.
Local Open Scope list_scope.

Definition str := list ascii.

(** Byte-string literals: [!"abc"] is the list of the characters a, b, c. *)
Notation "! s" := (ltac:(let x := eval cbv in (list_ascii_of_string s%string) in exact x))
  (at level 1, s constr at level 0, only parsing).

(** Line feed, used for "\n". *)
Definition nl_char : ascii := "010"%char.
Definition nl : str := [nl_char].
(** Double quote. *)
Definition dq_char : ascii := "034"%char.
Definition dq : str := [dq_char].

Definition str_eq_dec : forall a b : str, {a = b} + {a <> b} := list_eq_dec ascii_dec.
Definition str_eqb (a b : str) : bool := if str_eq_dec a b then true else false.

(** ** Results of Go functions *)

(** [Ok]: normal return; [Err]: a non-nil [error] is returned; [Panic]: run-time panic;
    [OutOfFuel]: the (unbounded) Go loop has not ended within the given number of rounds. *)
Inductive res (A : Type) : Type :=
| Ok (a : A)
| Err
| Panic
| OutOfFuel.
Arguments Ok {A} a.
Arguments Err {A}.
Arguments Panic {A}.
Arguments OutOfFuel {A}.

Definition bind {A C} (r : res A) (f : A -> res C) : res C :=
  match r with
  | Ok a => f a
  | Err => Err
  | Panic => Panic
  | OutOfFuel => OutOfFuel
  end.

Notation "'let!' p ':=' e 'in' f" := (bind e (fun x => match x with p => f end))
  (at level 200, p pattern, e at level 100, f at level 200, right associativity).

Fixpoint map_res {A C} (f : A -> res C) (l : list A) : res (list C) :=
  match l with
  | [] => Ok []
  | a :: l' => let! b := f a in let! bs := map_res f l' in Ok (b :: bs)
  end.

(** ** Package [strings] *)

(** strings.HasPrefix *)
Fixpoint has_prefix (p s : str) : bool :=
  match p, s with
  | [], _ => true
  | _ :: _, [] => false
  | a :: p', b :: s' => Ascii.eqb a b && has_prefix p' s'
  end.

(** strings.HasSuffix *)
Definition has_suffix (p s : str) : bool := has_prefix (rev p) (rev s).

(** strings.Index; [None] is -1 *)
Fixpoint index (p s : str) : option nat :=
  if has_prefix p s then Some 0
  else match s with
       | [] => None
       | _ :: s' => option_map S (index p s')
       end.

(** strings.Contains *)
Definition contains (p s : str) : bool :=
  match index p s with Some _ => true | None => false end.

(** strings.Split for a non-empty separator.  [skip] bytes are passed over silently. *)
Fixpoint split_go (sep s : str) (skip : nat) : list str :=
  match s with
  | [] => [[]]
  | c :: s' =>
    match skip with
    | S k => split_go sep s' k
    | O =>
      if has_prefix sep s then [] :: split_go sep s' (pred (List.length sep))
      else match split_go sep s' 0 with
           | h :: t => (c :: h) :: t
           | [] => [[c]]
           end
    end
  end.
Definition split (sep s : str) : list str := split_go sep s 0.

(** strings.SplitN(s, sep, 2) *)
Definition split2 (sep s : str) : list str :=
  match index sep s with
  | Some i => [firstn i s; skipn (i + List.length sep) s]
  | None => [s]
  end.

(** strings.ReplaceAll for a non-empty [old] *)
Fixpoint replace_go (old new s : str) (skip : nat) : str :=
  match s with
  | [] => []
  | c :: s' =>
    match skip with
    | S k => replace_go old new s' k
    | O =>
      if has_prefix old s then new ++ replace_go old new s' (pred (List.length old))
      else c :: replace_go old new s' 0
    end
  end.
Definition replace_all (old new s : str) : str := replace_go old new s 0.

(** strings.Replace(s, old, new, 1) *)
Definition replace_first (old new s : str) : str :=
  match index old s with
  | Some i => firstn i s ++ new ++ skipn (i + List.length old) s
  | None => s
  end.

(** strings.Join *)
Fixpoint join (sep : str) (l : list str) : str :=
  match l with
  | [] => []
  | [a] => a
  | a :: l' => a ++ sep ++ join sep l'
  end.

(** strings.Repeat *)
Fixpoint repeat_str (s : str) (n : nat) : str :=
  match n with O => [] | S k => s ++ repeat_str s k end.

(** strings.TrimPrefix / TrimSuffix *)
Definition trim_prefix (p s : str) : str :=
  if has_prefix p s then skipn (List.length p) s else s.
Definition trim_suffix (p s : str) : str :=
  if has_suffix p s then firstn (List.length s - List.length p) s else s.

(** The UTF-8 encodings of all runes for which unicode.IsSpace holds: \t \n \v \f \r blank U+0085 U+00A0 U+1680
    U+2000..U+200A U+2028 U+2029 U+202F U+205F U+3000. *)
Definition byte (n : N) : ascii := ascii_of_N n.
Definition space_runes : list str :=
  [ [byte 9]; [byte 10]; [byte 11]; [byte 12]; [byte 13]; [byte 32];
    [byte 194; byte 133]; [byte 194; byte 160];
    [byte 225; byte 154; byte 128];
    [byte 226; byte 128; byte 128]; [byte 226; byte 128; byte 129]; [byte 226; byte 128; byte 130];
    [byte 226; byte 128; byte 131]; [byte 226; byte 128; byte 132]; [byte 226; byte 128; byte 133];
    [byte 226; byte 128; byte 134]; [byte 226; byte 128; byte 135]; [byte 226; byte 128; byte 136];
    [byte 226; byte 128; byte 137]; [byte 226; byte 128; byte 138];
    [byte 226; byte 128; byte 168]; [byte 226; byte 128; byte 169]; [byte 226; byte 128; byte 175];
    [byte 226; byte 129; byte 159]; [byte 227; byte 128; byte 128] ].

(** Length of the first of the given patterns [s] starts with, 0 if there is none. *)
Fixpoint lead_len (pats : list str) (s : str) : nat :=
  match pats with
  | [] => 0
  | p :: ps => if has_prefix p s then List.length p else lead_len ps s
  end.

(** Repeatedly removes leading patterns. *)
Fixpoint strip_go (pats : list str) (s : str) (skip : nat) : str :=
  match s with
  | [] => []
  | c :: s' =>
    match skip with
    | S k => strip_go pats s' k
    | O => match lead_len pats s with
           | O => s
           | S k => strip_go pats s' k
           end
    end
  end.

(** strings.TrimLeftFunc(s, unicode.IsSpace), strings.TrimRightFunc(s, unicode.IsSpace), strings.TrimSpace *)
Definition trim_left (s : str) : str := strip_go space_runes s 0.
Definition trim_right (s : str) : str := rev (strip_go (map (@rev ascii) space_runes) (rev s) 0).
Definition trim_space (s : str) : str := trim_right (trim_left s).

(** strings.ToLower / strings.ToUpper on ASCII letters *)
Definition lower_char (c : ascii) : ascii :=
  let n := N_of_ascii c in
  if (65 <=? n)%N && (n <=? 90)%N then ascii_of_N (n + 32) else c.
Definition upper_char (c : ascii) : ascii :=
  let n := N_of_ascii c in
  if (97 <=? n)%N && (n <=? 122)%N then ascii_of_N (n - 32) else c.
Definition to_lower (s : str) : str := map lower_char s.
Definition to_upper (s : str) : str := map upper_char s.

Definition is_digit (c : ascii) : bool :=
  let n := N_of_ascii c in (48 <=? n)%N && (n <=? 57)%N.

(** ** Package [strconv] / [fmt] *)

(** fmt's %d for a non-negative number *)
Definition itoa (n : nat) : str :=
  list_ascii_of_string (DecimalString.NilZero.string_of_uint (Nat.to_uint n)).

(** strconv.Atoi: optional sign, at least one digit, digits only; values outside of int64 are errors. *)
Fixpoint digits_val (acc : Z) (s : str) : option Z :=
  match s with
  | [] => Some acc
  | c :: s' => if is_digit c
               then digits_val (acc * 10 + (Z.of_N (N_of_ascii c) - 48)) s'
               else None
  end.
Definition in_int64 (z : Z) : bool := (- 9223372036854775808 <=? z)%Z && (z <=? 9223372036854775807)%Z.
Definition atoi_raw (s : str) : option Z :=
  match s with
  | [] => None
  | c :: s' =>
    if Ascii.eqb c "-" then match s' with [] => None | _ => option_map Z.opp (digits_val 0 s') end
    else if Ascii.eqb c "+" then match s' with [] => None | _ => digits_val 0 s' end
    else digits_val 0 s
  end.
Definition atoi (s : str) : option Z :=
  match atoi_raw s with
  | Some z => if in_int64 z then Some z else None
  | None => None
  end.

(** ** Slices *)

(** [s[lo:hi]] with Go's bounds check *)
Definition zslice (s : str) (lo hi : Z) : res str :=
  if ((0 <=? lo) && (lo <=? hi) && (hi <=? Z.of_nat (List.length s)))%Z
  then Ok (firstn (Z.to_nat (hi - lo)) (skipn (Z.to_nat lo) s))
  else Panic.
(** [s[lo:]] *)
Definition zslice_from (s : str) (lo : Z) : res str := zslice s lo (Z.of_nat (List.length s)).
(** [s[i]] *)
Definition zindex {A} (s : list A) (i : Z) : res A :=
  if (0 <=? i)%Z then
    match nth_error s (Z.to_nat i) with Some c => Ok c | None => Panic end
  else Panic.

(** [s[lo:hi]] for bounds known to be in range *)
Definition sub (s : str) (lo hi : nat) : str := firstn (hi - lo) (skipn lo s).

Definition mem_str (x : str) (l : list str) : bool := existsb (str_eqb x) l.
