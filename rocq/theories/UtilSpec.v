(** * Specifications for file names, paths and collections (independent of the model) *)

From Coq Require Import Ascii String.
From Coq Require Import List.
From Verif Require Import GoStr.
Import ListNotations.
Local Open Scope list_scope.

(** Characters that must not occur in file names: less, greater, colon, double quote, slash, backslash, bar,
    question mark, asterisk *)
Definition reserved : list ascii :=
  ["<"; ">"; ":"; "034"; "/"; "\"; "|"; "?"; "*"]%char.

(** The ten escape codes. *)
Definition escape_codes : list str :=
  [!"%25"; !"%3C"; !"%3E"; !"%3A"; !"%22"; !"%2F"; !"%5C"; !"%7C"; !"%3F"; !"%2A"].

(** A text made of harmless characters and escape codes: every % starts an escape code. *)
Inductive escaped : str -> Prop :=
| esc_nil : escaped []
| esc_char : forall c s, ~ In c reserved -> c <> "%"%char -> escaped s -> escaped (c :: s)
| esc_code : forall code s, In code escape_codes -> escaped s -> escaped (code ++ s).

(** A proper name of a directory entry. *)
Definition entry_name (c : str) : Prop :=
  c <> [] /\ c <> !"." /\ c <> !".." /\ ~ In "/"%char c.

(** The elements of [l] that have no equal element before them, in order of position. *)
Definition first_occurrences (l : list str) : list str :=
  flat_map (fun i => match nth_error l i with
                     | Some x => if in_dec str_eq_dec x (firstn i l) then [] else [x]
                     | None => []
                     end) (seq 0 (List.length l)).
