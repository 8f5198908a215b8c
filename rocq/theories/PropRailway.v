(** * C61: railway tables *)

From Coq Require Import Ascii String.
From Coq Require Import List Arith Bool Lia.
From Verif Require Import GoStr GoStrFacts ConfigModel CleanerModel TemplateModel ArticleModel RailwaySpec RailwayProofs.
From Verif Require Import PropTokens PropTemplate PropEnd.
Import ListNotations.
Local Open Scope list_scope.

(** The beginnings and ends of all railway tables are removed, and nothing else.  (Missing: tables that contain other tables or templates with
    something that looks like the end of a table, see below.) *)
Theorem C61_railway_partial : forall fuel s r, railway s r -> contains table_head r = false -> List.length s < fuel ->
  hackGermanRailwayTemplates fuel s 0 = Ok r.
Proof. intros. apply hack_railway; auto. Qed.
Print Assumptions C61_railway_partial.

(** There is only one way to read the tables. *)
Theorem C61_unique : forall s r r', railway s r -> railway s r' -> contains table_head r = false -> contains table_head r' = false -> r = r'.
Proof.
  intros s r r' H H' N N'. pose proof (hack_railway (S (List.length s)) s r H N ltac:(lia)) as E. rewrite (hack_railway (S (List.length s)) s r' H' N' ltac:(lia)) in E. injection E as E. auto.
Qed.
Print Assumptions C61_unique.

(** The same for the cleanup of a text in which the other steps of the cleanup have nothing to do *)
Theorem C61_clean_partial : forall cfg s r, railway s r -> contains table_head r = false ->
  removeComments s = s -> removeUnwantedInternalLinks cfg s = Ok s -> handleUnwantedAndTrailingTemplates cfg s = Ok s -> removeUnwantedWikitext s = s ->
  removeEmptyListEntries s = s -> removeEmptySections s = s -> clean cfg s = Ok r.
Proof.
  intros cfg s r H N E1 E2 E3 E4 E5 E6. unfold clean. rewrite E1, E2. cbn [bind]. rewrite E3. cbn [bind]. rewrite E4, E5, E6. apply hack_railway; auto.
Qed.
Print Assumptions C61_clean_partial.

(** A table without end is an error (unless it is the end of the text). *)
Theorem C61_unclosed : forall fuel before c behind, contains table_end (before ++ table_head ++ c :: behind) = false ->
  List.length (before ++ table_head ++ c :: behind) < fuel -> hackGermanRailwayTemplates fuel (before ++ table_head ++ c :: behind) 0 = Err.
Proof. intros fuel before c behind E L. eapply hack_no_end; eauto. Qed.
Print Assumptions C61_unclosed.

(** Without railway tables nothing changes, also if there are other tables. *)
Theorem C61_other_tables : forall fuel s, contains table_head s = false -> List.length s < fuel -> hackGermanRailwayTemplates fuel s 0 = Ok s.
Proof.
  intros fuel s N L. apply hack_railway; auto. clear L. induction s as [|c s IH]; [constructor|]. destruct (contains_tail _ _ _ N) as [P N']. constructor; auto.
Qed.
Print Assumptions C61_other_tables.

(** ** An example: nested tables *)

Definition railway_example : str := join nl [!"a"; !"{{BS-table}}"; !"{{BS|b}}"; !"{{BS-table}}"; !"c"; !"|}"; !"d"; !"|}"; !"e {{BS-table}}f|}"; !"g"].
Definition railway_cleaned : str := join nl [!"a"; []; !"{{BS|b}}"; []; !"c"; []; !"d"; []; !"e f"; !"g"].

Ltac plain_character := apply railway_text; [reflexivity|].
Lemma railway_example_ok : railway railway_example railway_cleaned.
Proof.
  do 2 plain_character. apply (railway_table (nl ++ !"{{BS|b}}" ++ nl ++ table_head ++ (nl ++ !"c" ++ nl) ++ table_end ++ nl ++ !"d" ++ nl) (nl ++ !"{{BS|b}}" ++ nl ++ (nl ++ !"c" ++ nl) ++ nl ++ !"d" ++ nl)
    (nl ++ !"e {{BS-table}}f|}" ++ nl ++ !"g") (nl ++ !"e f" ++ nl ++ !"g")); [|vm_compute; reflexivity|].
  - do 10 plain_character. apply (railway_table (nl ++ !"c" ++ nl) (nl ++ !"c" ++ nl) (nl ++ !"d" ++ nl) (nl ++ !"d" ++ nl)); [do 3 plain_character; constructor|vm_compute; reflexivity|do 3 plain_character; constructor].
  - do 3 plain_character. apply (railway_table !"f" !"f" (nl ++ !"g") (nl ++ !"g")); [plain_character; constructor|reflexivity|do 2 plain_character; constructor].
Qed.

Example C61_example : railway railway_example railway_cleaned /\ clean default_config railway_example = Ok railway_cleaned.
Proof.
  split; [exact railway_example_ok|]. apply C61_clean_partial; [exact railway_example_ok|..]; vm_compute; reflexivity.
Qed.

(** ** What is missing *)

(** An empty last argument of a template is taken for the end of the table; the template is damaged, and the whole article fails. *)
Theorem C61_argument_refuted : forall Hash service, Tokenize Hash service default_config (!"{{BS-table}}{{a|}}" ++ nl ++ !"|}") Failed.
Proof.
  intros Hash service. apply (tokenize_template Hash service default_config _ (!"{{a}" ++ nl ++ !"|}") (mkTState [] []) Err); [vm_compute; reflexivity|reflexivity|constructor].
Qed.
Print Assumptions C61_argument_refuted.

(** The end of a table within the railway table is taken for its end; the text behind becomes a part of the inner table. *)
Theorem C61_inner_table_refuted : clean default_config (join nl [!"{{BS-table}}"; !"{|"; !"| a"; !"|}"; !"b"; !"|}"]) = Ok (join nl [[]; !"{|"; !"| a"; []; !"b"; !"|}"]).
Proof. vm_compute. reflexivity. Qed.
Print Assumptions C61_inner_table_refuted.

(** A table that begins at the end of the text is not found. *)
Theorem C61_end_refuted : clean default_config !"a {{BS-table}}" = Ok !"a {{BS-table}}".
Proof. vm_compute. reflexivity. Qed.
Print Assumptions C61_end_refuted.
