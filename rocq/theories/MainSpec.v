(** * Specification vocabulary for the properties of src/main.go and of external commands *)

From Coq Require Import Ascii String.
From Coq Require Import List Arith.
From Verif Require Import GoStr.
Import ListNotations.
Local Open Scope list_scope.

Definition space : ascii := " "%char.

Definition no_slash (s : str) : Prop := ~ In "/"%char s.

(** A word of a command template is a sequence of literal texts and of places for the input and output file *)
Inductive part := Literal (text : str) | InputFile | OutputFile.
Definition word := list part.

(** The word as written by the user in the template *)
Definition written (w : word) : str :=
  List.concat (map (fun p => match p with Literal s => s | InputFile => !"{INPUT}" | OutputFile => !"{OUTPUT}" end) w).

(** The word as it should reach the external program *)
Definition filled (input output : str) (w : word) : str :=
  List.concat (map (fun p => match p with Literal s => s | InputFile => input | OutputFile => output end) w).

(** Literal texts contain neither a space (which would separate words) nor an opening brace *)
Definition plain_word (w : word) : Prop :=
  forall s, In (Literal s) w -> ~ In space s /\ ~ In "{"%char s.

(** Reading of a pandoc command line (https://pandoc.org/MANUAL.html): options with their values, in order, and the
    input files *)
Definition value_options : list str := [!"-f"; !"-t"; !"-o"; !"--metadata"; !"--toc-depth"; !"--data-dir"; !"--css"].
Definition equals_options : list str := [!"--epub-cover-image="; !"--epub-embed-font="].

Fixpoint read_args (args : list str) : list (str * str) * list str :=
  match args with
  | [] => ([], [])
  | a :: rest =>
    if existsb (str_eqb a) value_options then
      match rest with
      | [] => ([], [])
      | v :: rest' => let '(o, files) := read_args rest' in ((a, v) :: o, files)
      end
    else if str_eqb a !"--toc" then let '(o, files) := read_args rest in ((a, []) :: o, files)
    else match find (fun p => has_prefix p a) equals_options with
         | Some p => let '(o, files) := read_args rest in ((p, trim_prefix p a) :: o, files)
         | None => let '(o, files) := read_args rest in (o, a :: files)
         end
  end.
