(** * Specification vocabulary for the references to images *)

From Coq Require Import Ascii String.
From Coq Require Import List NArith Bool.
From Verif Require Import GoStr UtilModel ConfigModel CacheModel HttpModel.
Import ListNotations.
Local Open Scope list_scope.

(** Decoding of the path of a URL: a percent sign and two hexadecimal digits are one byte. *)
Definition hex_value (c : ascii) : option N :=
  let n := N_of_ascii c in
  if (48 <=? n)%N && (n <=? 57)%N then Some (n - 48)%N
  else if (65 <=? n)%N && (n <=? 70)%N then Some (n - 55)%N
  else if (97 <=? n)%N && (n <=? 102)%N then Some (n - 87)%N
  else None.
Fixpoint percent_decode (s : str) : str :=
  match s with
  | [] => []
  | c :: s' =>
      if Ascii.eqb c "%" then
        match s' with
        | a :: b :: rest =>
            match hex_value a, hex_value b with
            | Some h, Some l => ascii_of_N (16 * h + l) :: percent_decode rest
            | _, _ => c :: percent_decode s'
            end
        | _ => c :: percent_decode s'
        end
      else c :: percent_decode s'
  end.

(** The same conversion commands are used for post-processing and for the HTML. *)
Definition same_settings (cfg : configuration) (wiki : wiki_config) : Prop :=
  (ConvertPdf wiki = true <-> strings cfg CommandTemplatePdfToPng <> []) /\
  (ConvertSvg wiki = true <-> strings cfg CommandTemplateSvgToPng <> []) /\
  (ConvertWebp wiki = true <-> strings cfg CommandTemplateWebpToPng <> []).

(** Names of image files *)
Definition image_name (file : str) : Prop := ~ In ":"%char file /\ ~ In " "%char file /\ file <> [] /\ file <> !"." /\ file <> !"..".

Definition has_extension (extension file : str) : Prop := exists base, to_lower file = base ++ extension.
Definition converted (wiki : wiki_config) (file : str) : Prop :=
  (ConvertPdf wiki = true /\ has_extension !".pdf" file) \/
  (ConvertSvg wiki = true /\ has_extension !".svg" file) \/
  (ConvertWebp wiki = true /\ has_extension !".webp" file).

(** Where the image is: at its own path in the image cache, or the converted image next to it *)
Definition image_file (wiki : wiki_config) (file : str) (p : path) : Prop :=
  (~ converted wiki file /\ p = [!"images"; SanitizeFilename file]) \/
  (converted wiki file /\ p = [!"images"; SanitizeFilename file ++ !".png"]).
