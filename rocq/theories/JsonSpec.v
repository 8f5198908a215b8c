(** * Specification: JSON texts (RFC 8259) and what they say *)

From Coq Require Import Ascii String.
From Coq Require Import List Arith NArith Bool.
From Verif Require Import GoStr StatsSpec.
Import ListNotations.
Local Open Scope list_scope.

(** Strings are sequences of Unicode characters; numbers are given by their text. *)
Inductive json :=
| JString (s : list N)
| JNumber (digits : str)
| JTrue | JFalse | JNull
| JObject (members : list (list N * json))
| JArray (elements : list json).

(** White space: blank, tab, line feed, carriage return.  [blanks s r]: [r] is the text behind the white space at the beginning of [s]. *)
Definition blank (c : ascii) : Prop := In (N_of_ascii c) [32; 9; 10; 13]%N.
Definition no_blank (s : str) : Prop := match s with c :: _ => ~ blank c | [] => True end.
Definition blanks (s r : str) : Prop := exists w, s = w ++ r /\ Forall blank w /\ no_blank r.

(** Numbers *)
Definition digit (c : ascii) : Prop := (48 <= N_of_ascii c <= 57)%N.
Definition whole (s : str) : Prop := Forall digit s /\ s <> [] /\ (forall c s', s = "0"%char :: c :: s' -> False).
Definition number_text (s : str) : Prop :=
  exists sign int frac exp, s = sign ++ int ++ frac ++ exp /\ (sign = [] \/ sign = !"-") /\ whole int /\
    (frac = [] \/ exists d, frac = !"." ++ d /\ Forall digit d /\ d <> []) /\
    (exp = [] \/ exists e sg d, exp = e ++ sg ++ d /\ In e [!"e"; !"E"] /\ In sg [[]; !"+"; !"-"] /\ Forall digit d /\ d <> []).
Definition in_number (c : ascii) : Prop := In c !"0123456789+-.eE".
(** A number goes as far as possible. *)
Definition ends_number (r : str) : Prop := match r with c :: _ => ~ in_number c | [] => True end.

(** Strings: characters from the quote on *)
Definition hex (c : ascii) (v : N) : Prop :=
  let n := N_of_ascii c in ((48 <= n <= 57 /\ v = n - 48) \/ (65 <= n <= 70 /\ v = n - 55) \/ (97 <= n <= 102 /\ v = n - 87))%N.
Definition hex4 (s : str) (v : N) : Prop :=
  exists a b c d x y z w, s = [a; b; c; d] /\ hex a x /\ hex b y /\ hex c z /\ hex d w /\ v = (x * 4096 + y * 256 + z * 16 + w)%N.
Definition escapes : list (ascii * N) :=
  [(ascii_of_N 34, 34); ("\"%char, 92); ("/"%char, 47); ("b"%char, 8); ("f"%char, 12); ("n"%char, 10); ("r"%char, 13); ("t"%char, 9)]%N.
Definition quote : ascii := ascii_of_N 34.
Inductive reads_string : str -> list N -> str -> Prop :=
| string_end : forall r, reads_string (quote :: r) [] r
| string_plain : forall c s cs r, scalar c -> (32 <= c)%N -> c <> 34%N -> c <> 92%N -> reads_string s cs r -> reads_string (utf8 c ++ s) (c :: cs) r
| string_escape : forall e c s cs r, In (e, c) escapes -> reads_string s cs r -> reads_string ("\"%char :: e :: s) (c :: cs) r
| string_hex : forall h c s cs r, hex4 h c -> scalar c -> reads_string s cs r -> reads_string ("\"%char :: "u"%char :: h ++ s) (c :: cs) r
| string_pair : forall h l high low s cs r, hex4 h high -> hex4 l low -> (55296 <= high < 56320)%N -> (56320 <= low < 57344)%N -> reads_string s cs r ->
    reads_string ("\"%char :: "u"%char :: h ++ "\"%char :: "u"%char :: l ++ s) ((65536 + (high - 55296) * 1024 + (low - 56320))%N :: cs) r.

(** [reads_value s v r]: the text [s] begins with the value [v], and [r] is the rest. *)
Inductive reads_value : str -> json -> str -> Prop :=
| value_string : forall s s1 cs r, blanks s (quote :: s1) -> reads_string s1 cs r -> reads_value s (JString cs) r
| value_number : forall s t r, blanks s (t ++ r) -> number_text t -> ends_number r -> reads_value s (JNumber t) r
| value_word : forall s word v r, blanks s (word ++ r) -> In (word, v) [(!"true", JTrue); (!"false", JFalse); (!"null", JNull)] -> reads_value s v r
| value_no_members : forall s s1 r, blanks s ("{"%char :: s1) -> blanks s1 ("}"%char :: r) -> reads_value s (JObject []) r
| value_object : forall s s1 ms r, blanks s ("{"%char :: s1) -> reads_members s1 ms r -> reads_value s (JObject ms) r
| value_no_elements : forall s s1 r, blanks s ("["%char :: s1) -> blanks s1 ("]"%char :: r) -> reads_value s (JArray []) r
| value_array : forall s s1 vs r, blanks s ("["%char :: s1) -> reads_elements s1 vs r -> reads_value s (JArray vs) r
with reads_members : str -> list (list N * json) -> str -> Prop :=
| member_last : forall s s1 key s2 s3 v s4 r, blanks s (quote :: s1) -> reads_string s1 key s2 -> blanks s2 (":"%char :: s3) -> reads_value s3 v s4 ->
    blanks s4 ("}"%char :: r) -> reads_members s [(key, v)] r
| member_more : forall s s1 key s2 s3 v s4 s5 ms r, blanks s (quote :: s1) -> reads_string s1 key s2 -> blanks s2 (":"%char :: s3) -> reads_value s3 v s4 ->
    blanks s4 (","%char :: s5) -> reads_members s5 ms r -> reads_members s ((key, v) :: ms) r
with reads_elements : str -> list json -> str -> Prop :=
| element_last : forall s v s1 r, reads_value s v s1 -> blanks s1 ("]"%char :: r) -> reads_elements s [v] r
| element_more : forall s v s1 s2 vs r, reads_value s v s1 -> blanks s1 (","%char :: s2) -> reads_elements s2 vs r -> reads_elements s (v :: vs) r.

(** The text is JSON and says [v]. *)
Definition json_text (s : str) (v : json) : Prop := exists r, reads_value s v r /\ blanks r [].

(** Text in UTF-8 *)
Definition encoded (cs : list N) : str := concat (map utf8 cs).
Definition is_utf8 (s : str) : Prop := exists cs, Forall scalar cs /\ s = encoded cs.
Definition named_by (cs : list N) (s : str) : Prop := Forall scalar cs /\ s = encoded cs.
