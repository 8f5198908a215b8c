(** * Tables (C24) *)

From Coq Require Import Ascii String.
From Coq Require Import List Arith ZArith Bool Lia.
From Verif Require Import GoStr GoStrFacts TrimFacts ConfigModel TokenModel TableModel TokenizerModel.
From Verif Require Import TokenSpec PassSpec TableSpec TokenProofs RefineProofs HeadingProofs JudgeProofs TableProofs PropPasses.
Import ListNotations.
Local Open Scope list_scope.

(** Every cell of a well-formed table is in the parsed table, in its row and column and with its text; nested tables are parsed in the
    same way.  All lines outside of tables stay.  (Missing: tables that are not well-formed in the sense of the specification although
    MediaWiki accepts them, see below, and that cells with several lines are heading cells.) *)
Theorem C24_tables_partial : forall cfg fuel blocks sources text result t t', unique t ->
  Forall block_ok blocks -> Forall2 line_source blocks sources -> split nl text = concat sources ->
  parseTables (tokenizeContent cfg fuel) text t = Ok (result, t') ->
  Forall2 (block_parsed (parsed_as (tokenizeContent cfg fuel) t') (fun key token => lookup_token key (tokenMap t') = Some token)) blocks (split nl result).
Proof.
  intros cfg fuel blocks sources text result t t' U B S L E. unfold parseTables in E. cbv zeta in E. rewrite L in E. unfold bindM in E.
  destruct (parseTables_go (tokenizeContent cfg fuel) (length (concat sources)) (concat sources) t) as [[ls t1]| | |] eqn:Eg; try discriminate. cbn in E. injection E as <- <-.
  destruct (judge_holds _ _ _ _ _ (tables_found _ false (fun _ => True) (fun _ _ => I) (runs_any cfg fuel) _ blocks sources t B ltac:(discriminate) S (ok_false t U)) ls t1 Eg) as ((U' & _) & _ & F).
  assert (Nl : Forall (fun l => ~ In nl_char l) ls).
  { clear -F B. induction F as [|item l blocks ls I F IH]; constructor; inversion B as [|? ? B1 B2]; subst; auto. destruct item as [s|tb].
    - cbn in I. subst l. apply B1.
    - destruct I as (i & token & -> & _). apply key_facts. }
  assert (Ne : ls <> []).
  { intros ->. inversion F; subst. inversion S; subst. cbn in L. eapply split_nonempty; eauto. }
  change nl with [nl_char]. rewrite split_join_single; auto. eapply Forall2_weaken; [|exact F]. intros item l I. destruct item as [s|tb].
  - cbn in I. subst l. constructor.
  - destruct I as (i & token & -> & I1 & I2). apply (replaced_table _ _ tb _ token).
    + apply In_key; auto.
    + eapply table_mono; [| |exact I2].
      * intros a b. apply parsed_spec. auto.
      * intros a b. apply In_key. auto.
Qed.
Print Assumptions C24_tables_partial.

(** A table with a caption, heading cells, attributes, cells on one line and a nested table *)
Definition inner_table : table := Table [] None [Row None [Group [mkCell false None !" x"] []]].
Definition example_table : table :=
  Table !" class=a" (Some (!" title", [!"more"]))
    [Row None [Group [mkCell true None !" a "; mkCell true None !" b"] []];
     Row (Some !" b") [Group [mkCell false (Some !"colspan=2 ") !" c "; mkCell false None []; mkCell false None !" -5!"] [TextLine !" d"; TableLines inner_table]]].

Definition example_lines : list str :=
  [!"before"; !"{| class=a"; !"|+ title"; !"more"; !"! a !! b"; !"|- b"; !"|colspan=2 | c |||| -5!"; !" d"; !"{|"; !"| x"; !"|}"; !"|}"; !"after"].

Ltac plain := repeat split; try reflexivity; vm_compute; intuition discriminate.
Ltac no_start := let x := fresh in let X := fresh in intros (x & X); vm_compute in X; discriminate.
Ltac no_end := let x := fresh in let X := fresh in intros (x & X); apply (f_equal (@rev ascii)) in X; rewrite rev_app_distr in X; vm_compute in X; discriminate.
Ltac cell := let a := fresh in let E := fresh in
  split; [plain|split; [intros a E; try discriminate; injection E as <-; (split; [plain|discriminate])|split; [reflexivity|split; [no_start|intros _; repeat split; no_start]]]].

Example C24_example : Forall block_ok [TextLine !"before"; TableLines example_table; TextLine !"after"] /\
  exists sources, Forall2 line_source [TextLine !"before"; TableLines example_table; TextLine !"after"] sources /\ concat sources = example_lines /\
  exists result t', parseTables (tokenizeContent default_config 3) (join nl example_lines) NewTokenizer = Ok (result, t') /\
    result = !"before" ++ nl ++ token_key TOKEN_TABLE 1 ++ nl ++ !"after" /\
    lookup_token (token_key TOKEN_TABLE 1) (tokenMap t') =
      Some (TableToken [[mkTableColToken [] !"a" true; mkTableColToken [] !"b" true];
                        [mkTableColToken [!"colspan=2"] !"c" false; mkTableColToken [] [] false; mkTableColToken [] (!"-5!" ++ nl ++ !"d" ++ nl ++ token_key TOKEN_TABLE 0) false]]
              (!"title" ++ nl ++ !"more")) /\
    lookup_token (token_key TOKEN_TABLE 0) (tokenMap t') = Some (TableToken [[mkTableColToken [] !"x" false]] []).
Proof.
  assert (Inner : table_ok inner_table).
  { apply a_table; [plain|discriminate| |].
    - constructor; [|constructor]. apply a_row; [discriminate|]. constructor; [|constructor]. apply a_group; [|constructor]. split; [apply last_cell; cell|discriminate].
    - apply first_row; [discriminate|intros a g []]. }
  assert (Outer : table_ok example_table).
  { apply a_table; [plain| | |].
    - intros s more E. injection E as <- <-. split; [plain|]. constructor; [split; [plain|no_start]|constructor].
    - constructor; [|constructor; [|constructor]].
      + apply a_row; [discriminate|]. constructor; [|constructor]. apply a_group; [|constructor]. split; [|intros c c' cells E; injection E as <- <- <-; discriminate].
        apply more_cells; [cell|split; no_end|]. apply last_cell. cell.
      + apply a_row; [intros s E; injection E as <-; plain|]. constructor; [|constructor]. apply a_group.
        * split; [|intros c c' cells E; injection E as <- <- <-; discriminate].
          apply more_cells; [cell|split; no_end|]. apply more_cells; [cell|split; no_end|]. apply last_cell. cell.
        * constructor; [|constructor; [|constructor]]; [apply a_text; split; [plain|no_start]|apply a_nested_table; exact Inner].
    - apply first_row; [discriminate|]. intros a g [E|[]]. injection E as <- <-. discriminate. }
  split.
  - constructor; [|constructor; [exact Outer|constructor; [|constructor]]].
    + split; [plain|]. intros colons rest E F. destruct colons as [|c colons]; [discriminate|]. inversion F; subst. discriminate.
    + split; [plain|]. intros colons rest E F. destruct colons as [|c colons]; [discriminate|]. inversion F; subst. discriminate.
  - eexists. split; [|split].
    + constructor; [apply text_source|constructor; [|constructor; [apply text_source|constructor]]]. apply table_source. cbn. repeat (apply Forall2_cons || apply Forall2_nil); try apply text_source.
      apply table_source. cbn. repeat (apply Forall2_cons || apply Forall2_nil); try apply text_source.
    + reflexivity.
    + destruct (parseTables (tokenizeContent default_config 3) (join nl example_lines) NewTokenizer) as [[r t']| | |] eqn:E; try (vm_compute in E; discriminate).
      exists r, t'. split; auto. vm_compute in E. injection E as <- <-. repeat split; vm_compute; reflexivity.
Qed.

(** The parsed table of a text that is one table *)
Definition parsed_table_of (lines : list str) : option Token :=
  match parseTables (tokenizeContent default_config 3) (join nl lines) NewTokenizer with
  | Ok (key, t) => lookup_token key (tokenMap t)
  | _ => None
  end.

(** Negative numbers: the second cell is lost, because its bar and its minus sign are taken for a row separator. *)
Theorem C24_refuted : exists sources,
  line_source (TableLines (Table [] None [Row None [Group [mkCell false None !"a"; mkCell false None !"-5"] []]])) sources /\ sources = [!"{|"; !"|a||-5"; !"|}"] /\
  parsed_table_of sources = Some (TableToken [[mkTableColToken [] !"a" false]; []] []).
Proof.
  eexists. split; [apply table_source; cbn; repeat (apply Forall2_cons || apply Forall2_nil); apply text_source|]. split; [reflexivity|]. vm_compute. reflexivity.
Qed.
Print Assumptions C24_refuted.

(** Exclamation marks: a leading one is lost, two of them separate cells even in a data cell. *)
Theorem C24_refuted_exclamation : exists sources,
  line_source (TableLines (Table [] None [Row None [Group [mkCell false None !"!a"] []; Group [mkCell false None !"b!! c"] []]])) sources /\ sources = [!"{|"; !"|!a"; !"|b!! c"; !"|}"] /\
  parsed_table_of sources = Some (TableToken [[mkTableColToken [] !"a" false; mkTableColToken [] !"b" false; mkTableColToken [] !"c" true]] []).
Proof.
  eexists. split; [apply table_source; cbn; repeat (apply Forall2_cons || apply Forall2_nil); apply text_source|]. split; [reflexivity|]. vm_compute. reflexivity.
Qed.
Print Assumptions C24_refuted_exclamation.

(** A heading cell of two lines is no heading cell in the parsed table. *)
Theorem C24_refuted_heading : exists sources,
  line_source (TableLines (Table [] None [Row None [Group [mkCell true None !"a"] [TextLine !"b"]]])) sources /\ sources = [!"{|"; !"!a"; !"b"; !"|}"] /\
  parsed_table_of sources = Some (TableToken [[mkTableColToken [] (!"a" ++ nl ++ !"b") false]] []).
Proof.
  eexists. split; [apply table_source; cbn; repeat (apply Forall2_cons || apply Forall2_nil); apply text_source|]. split; [reflexivity|]. vm_compute. reflexivity.
Qed.
Print Assumptions C24_refuted_heading.

(** The attributes of this cell are read as the specification says: the spans and the alignment stay. *)
Example C24_attributes : exists sources a l,
  line_source (TableLines (Table [] None [Row None [Group [mkCell false (Some a) !" a"] []]])) sources /\
  Forall attribute_ok l /\ trim_space a = join !" " (map attribute_source l) /\
  a = !"class=x style=" ++ dq ++ !"width:1em; text-align: right; color:red" ++ dq ++ !" rowspan=3 colspan=" ++ dq ++ !"12" ++ dq ++ !" " /\
  kept_spans l ++ kept_alignment l = [!"rowspan=3"; !"colspan=" ++ dq ++ !"12" ++ dq; !"style=" ++ dq ++ !"text-align: right;" ++ dq] /\
  parsed_table_of sources = Some (TableToken [[mkTableColToken (kept_spans l ++ kept_alignment l) !"a" false]] []).
Proof.
  eexists _, (!"class=x style=" ++ dq ++ !"width:1em; text-align: right; color:red" ++ dq ++ !" rowspan=3 colspan=" ++ dq ++ !"12" ++ dq ++ !" "),
    [OtherAttribute !"class=x"; Aligned (!"style=" ++ dq ++ !"width:1em; ") !" right" (!" color:red" ++ dq); SpanOf false false !"3"; SpanOf true true !"12"].
  split; [apply table_source; cbn [table_items flat_map row_items group_items app]; repeat (apply Forall2_cons || apply Forall2_nil); apply text_source|].
  split; [|split; [vm_compute; reflexivity|split; [reflexivity|split; vm_compute; reflexivity]]].
  repeat apply Forall_cons; try apply Forall_nil; cbn [attribute_ok].
  - split; [split|]; vm_compute; reflexivity.
  - split; [split; vm_compute; reflexivity|]. split; [vm_compute; reflexivity|]. split; [discriminate|]. split; vm_compute; intuition discriminate.
  - split; [discriminate|]. repeat (apply Forall_cons; [vm_compute; auto 20|]); apply Forall_nil.
  - split; [discriminate|]. repeat (apply Forall_cons; [vm_compute; auto 20|]); apply Forall_nil.
Qed.

(** Full claim: the alignment of a cell stays.  It is false: without a semicolon behind it, the alignment is lost. *)
Theorem C24_refuted_alignment : exists sources,
  line_source (TableLines (Table [] None [Row None [Group [mkCell false (Some (!"style=" ++ dq ++ !"text-align:right" ++ dq)) !"a"] []]])) sources /\
  parsed_table_of sources = Some (TableToken [[mkTableColToken [] !"a" false]] []).
Proof.
  eexists. split; [apply table_source; cbn [table_items flat_map row_items group_items app]; repeat (apply Forall2_cons || apply Forall2_nil); apply text_source|]. vm_compute. reflexivity.
Qed.
Print Assumptions C24_refuted_alignment.

(** An empty first cell in a line with other cells is lost, and so is the text behind a second bar. *)
Theorem C24_refuted_empty : exists sources,
  line_source (TableLines (Table [] None [Row None [Group [mkCell false None []; mkCell false None !"b"] []; Group [mkCell false (Some !"c") !" d | e"] []]])) sources /\ sources = [!"{|"; !"|||b"; !"|c| d | e"; !"|}"] /\
  parsed_table_of sources = Some (TableToken [[mkTableColToken [] !"b" false; mkTableColToken [] !"d" false]] []).
Proof.
  eexists. split; [apply table_source; cbn [table_items flat_map row_items group_items app]; repeat (apply Forall2_cons || apply Forall2_nil); apply text_source|]. split; [reflexivity|]. vm_compute. reflexivity.
Qed.
Print Assumptions C24_refuted_empty.

(** Two bars in a line of heading cells: the cell behind them is no heading cell. *)
Theorem C24_refuted_bars : parsed_table_of [!"{|"; !"! a || b"; !"|}"] = Some (TableToken [[mkTableColToken [] !"a" true; mkTableColToken [] !"b" false]] []).
Proof. vm_compute. reflexivity. Qed.
Print Assumptions C24_refuted_bars.
