(** * Specification: regular expressions as in Go, and the ones that the program uses *)

From Coq Require Import Ascii String.
From Coq Require Import List Arith NArith Bool.
From Verif Require Import GoStr.
Import ListNotations.
Local Open Scope list_scope.

(** ** Regular expressions

    Only what the program uses: classes of characters, sequences, alternatives, repetitions (of as much or as little as possible), groups and the end of the text.  Texts are
    bytes.  In Go the expressions read characters in UTF-8, but every class here has either all or none of the characters outside of ASCII, and those with all of them are
    repeated, so that it is the same.  Case folding is that of ASCII (see DESIGN.md). *)
Inductive regex :=
| Empty
| Char (p : ascii -> bool)
| Seq (a b : regex)
| Alt (a b : regex)
| Star (greedy : bool) (a : regex)
| Group (n : nat) (a : regex)
| EndOfText.

(** The matches at the beginning of a text in the order of preference: the rest behind the match, and the groups (the last one first).  Like the documentation of Go says, of all
    matches the one is taken that a backtracking engine would have found first: the first alternative, and one more (or one less) repetition, are preferred. *)
Definition match_result : Type := str * list (nat * str).
Definition andthen (x : match_result) (more : list match_result) : list match_result := map (fun y => (fst y, snd y ++ snd x)) more.

(** Repetitions; [f]: the matches of what is repeated.  Each repetition takes something from the text. *)
Fixpoint repeated (greedy : bool) (f : str -> list match_result) (n : nat) (s : str) : list match_result :=
  let more := match n with
    | O => []
    | S n' => flat_map (fun x => if length (fst x) <? length s then andthen x (repeated greedy f n' (fst x)) else []) (f s)
    end in
  if greedy then more ++ [(s, [])] else (s, []) :: more.

Fixpoint results (r : regex) (s : str) : list match_result :=
  match r with
  | Empty => [(s, [])]
  | Char p => match s with c :: s' => if p c then [(s', [])] else [] | [] => [] end
  | Seq a b => flat_map (fun x => andthen x (results b (fst x))) (results a s)
  | Alt a b => results a s ++ results b s
  | Star greedy a => repeated greedy (results a) (length s) s
  | Group n a => map (fun x => (fst x, (n, firstn (length s - length (fst x)) s) :: snd x)) (results a s)
  | EndOfText => match s with [] => [(s, [])] | _ => [] end
  end.

(** What an expression can read, without an order of preference: from a text to the rest behind the match *)
Inductive reads : regex -> str -> str -> Prop :=
| reads_empty : forall s, reads Empty s s
| reads_char : forall (p : ascii -> bool) c s, p c = true -> reads (Char p) (c :: s) s
| reads_seq : forall a b s t u, reads a s t -> reads b t u -> reads (Seq a b) s u
| reads_left : forall a b s t, reads a s t -> reads (Alt a b) s t
| reads_right : forall a b s t, reads b s t -> reads (Alt a b) s t
| reads_none : forall g a s, reads (Star g a) s s
| reads_more : forall g a s t u, reads a s t -> reads (Star g a) t u -> reads (Star g a) s u
| reads_group : forall n a s t, reads a s t -> reads (Group n a) s t
| reads_end : reads EndOfText [] [].

(** ** Searching *)

(** A match: where it begins, its text, and its groups *)
Record found := mkFound { position : nat; matched : str; groups : list (nat * str) }.

(** The match at the beginning of the text (for expressions that begin with ^) *)
Definition match_here (r : regex) (s : str) : option found :=
  match results r s with
  | (rest, g) :: _ => Some (mkFound 0 (firstn (length s - length rest) s) g)
  | [] => None
  end.

(** The leftmost match *)
Fixpoint find (r : regex) (s : str) : option found :=
  match match_here r s with
  | Some m => Some m
  | None =>
      match s with
      | [] => None
      | _ :: s' => option_map (fun m => mkFound (S (position m)) (matched m) (groups m)) (find r s')
      end
  end.

(** All matches from left to right which do not overlap (for expressions that do not match the empty text) *)
Fixpoint find_all_go (n : nat) (r : regex) (s : str) : list found :=
  match n with
  | O => []
  | S n' =>
      match find r s with
      | None => []
      | Some m => m :: find_all_go n' r (skipn (position m + length (matched m)) s)
      end
  end.
Definition find_all (r : regex) (s : str) : list found := find_all_go (S (length s)) r s.

(** The text without all these matches *)
Fixpoint remove_all_go (n : nat) (r : regex) (s : str) : str :=
  match n with
  | O => s
  | S n' =>
      match find r s with
      | None => s
      | Some m => firstn (position m) s ++ remove_all_go n' r (skipn (position m + length (matched m)) s)
      end
  end.
Definition remove_all (r : regex) (s : str) : str := remove_all_go (S (length s)) r s.

Fixpoint group (n : nat) (l : list (nat * str)) : option str :=
  match l with
  | [] => None
  | (m, s) :: l' => if n =? m then Some s else group n l'
  end.

(** ** Abbreviations *)

Definition is (c : ascii) : regex := Char (Ascii.eqb c).
Definition one_of (l : str) : regex := Char (fun c => existsb (Ascii.eqb c) l).
Definition none_of (l : str) : regex := Char (fun c => negb (existsb (Ascii.eqb c) l)).
Definition any : regex := none_of nl.                         (* the dot *)
Definition anything : regex := Char (fun _ => true).          (* the dot with the flag s *)
Definition digit : regex := Char is_digit.
Definition space : regex := one_of [" "%char; "009"%char; "010"%char; "012"%char; "013"%char].
Definition plus (greedy : bool) (a : regex) : regex := Seq a (Star greedy a).
Definition optional (a : regex) : regex := Alt a Empty.
Fixpoint sequence (l : list regex) : regex := match l with [] => Empty | a :: l' => Seq a (sequence l') end.
Definition word (s : str) : regex := sequence (map is s).
(** A word with the flag i *)
Definition word_i (s : str) : regex := sequence (map (fun c => Char (fun d => Ascii.eqb (lower_char c) (lower_char d))) s).

(** ** The expressions of the program *)

(** src/parser/pattern.go 21: $$TOKEN_[A-Z_0-9]+_\d+$$ (with escaped dollar signs) *)
Definition TOKEN_REGEX : regex :=
  sequence [word !"$$TOKEN_"; plus true (one_of !"ABCDEFGHIJKLMNOPQRSTUVWXYZ_0123456789"); word !"_"; plus true digit; word !"$$"].
(** src/parser/pattern.go 22: this between ^ and $ *)
Definition TOKEN_LINE_REGEX : regex := sequence [TOKEN_REGEX; EndOfText].
(** src/parser/pattern.go 32: {{\s*([^\n|}]+) *)
Definition templateNameRegex : regex := sequence [word !"{{"; Star true space; Group 1 (plus true (none_of (nl ++ !"|}")))].
(** src/parser/pattern.go 38: (?s)\[\[([^]]+?): *)
Definition internalLinkStartRegex : regex := sequence [word !"[["; Group 1 (plus false (none_of !"]")); word !":"].
(** src/parser/pattern.go 43, 44: (?i)^<gallery.*?>, and the same with imagemap *)
Definition galleryStartRegex : regex := sequence [word_i !"<gallery"; Star false any; word_i !">"].
Definition imagemapStartRegex : regex := sequence [word_i !"<imagemap"; Star false any; word_i !">"].
(** src/parser/pattern.go 45: (?i)(mini|thumb), see image.go 14 *)
Definition hasNonInlineParameterRegex : regex := Group 1 (Alt (word_i !"mini") (word_i !"thumb")).
(** src/parser/pattern.go 50: ^(:* )(\{\|.* ), without the blanks *)
Definition tableStartRegex : regex := sequence [Group 1 (Star true (is ":")); Group 2 (sequence [word !"{|"; Star true any])].
(** src/parser/pattern.go 51: (colspan|rowspan)=, a quote or none, (\d+), a quote or none *)
Definition tableRowAndColspanRegex : regex :=
  sequence [Group 1 (Alt (word !"colspan") (word !"rowspan")); word !"="; optional (word dq); Group 2 (plus true digit); optional (word dq)].
(** src/parser/pattern.go 52: text-align:.+?; *)
Definition tableTextAlignRegex : regex := sequence [word !"text-align:"; plus false any; word !";"].
(** src/parser/pattern.go 57 to 59: (?i)<references.*?/\s*> and (?i)<references.*?\s*> and (?i)</references\s*> *)
Definition referencePlaceholderShortRegex : regex := sequence [word_i !"<references"; Star false any; word_i !"/"; Star true space; word_i !">"].
Definition referencePlaceholderStartRegex : regex := sequence [word_i !"<references"; Star false any; Star true space; word_i !">"].
Definition referencePlaceholderEndRegex : regex := sequence [word_i !"</references"; Star true space; word_i !">"].
(** src/parser/pattern.go 64: <math.*?>((.|\n|\r)*?)</math> *)
Definition mathRegex : regex :=
  sequence [word !"<math"; Star false any; word !">"; Group 1 (Star false (Group 2 (Alt any (Alt (is nl_char) (is "013"%char))))); word !"</math>"].
(** src/generator/epub.go 98: (?s)<h1>(.* )</h1> (without the blank) *)
Definition headingTitleRegex : regex := sequence [word !"<h1>"; Group 1 (Star true anything); word !"</h1>"].
