(** * Properties of the evaluation of templates: C13 and C14 *)

From Coq Require Import Ascii String.
From Coq Require Import List Arith NArith Bool Lia.
From Verif Require Import GoStr GoStrFacts BracketModel BracketSpec BracketProofs TemplateModel TemplateSpec TemplateProofs TemplateScanProofs TemplateEvalProofs.
Import ListNotations.
Local Open Scope list_scope.

(** C13: For every text in which the templates are closed and all answers of the template service, the templates are evaluated and
    the replacement of placeholders ends for every iteration order, always with the text in which every template is replaced by
    its evaluation.  Assumptions: the requests of the article have different hash values, and the evaluated text does not contain
    the text of a placeholder (see [C13_placeholder_text_refuted]; that is what is missing to the full claim). *)
Theorem C13_any_order_partial : forall Hash answer content l tree, (forall s, hash_value (Hash s)) ->
  (forall p q, In p (all_requests Hash tree) -> In q (all_requests Hash tree) -> Hash p = Hash q -> p = q) ->
  reading !"{{" !"}}" content l -> closed l tree -> contains !"TEMPLATE_PLACEHOLDER_" (evaluations Hash answer tree) = false ->
  exists st first, evaluateTemplates_first Hash (fun _ r => Some (pieces_text (answer r))) content = (st, Ok first) /\
    resolving_ends (placeholders st) first /\ (exists result, resolves (placeholders st) first result) /\
    forall result, resolves (placeholders st) first result -> result = evaluations Hash answer tree.
Proof. exact templates_evaluated. Qed.
Print Assumptions C13_any_order_partial.

(** Replacing placeholders, whatever the placeholders stand for: if the placeholders have values and none of them contains itself
    ([filled]), then replacing ends with the same text for all orders. *)
Theorem C13_replacing : forall value m l t, (forall k, lookup k m = option_map pieces_text (value k)) ->
  (forall k v, value k = Some v -> Forall hexadecimal k) -> filled value l t -> contains !"TEMPLATE_PLACEHOLDER_" t = false ->
  resolving_ends m (pieces_text l) /\ forall result, resolves m (pieces_text l) result -> result = t.
Proof.
  intros value m l t V K F C. destruct (filled_deep value l t F) as (n & D). exact (resolve_all value m V K n l t D F C).
Qed.
Print Assumptions C13_replacing.

(** An example of a hash function *)
Definition digit (n : N) : ascii := nth (N.to_nat n) !"0123456789abcdef" "0"%char.
Definition example_hash (s : str) : str :=
  firstn 40 (flat_map (fun c => [digit (N_of_ascii c / 16); digit (N_of_ascii c mod 16)]%N) s ++ repeat "0"%char 40).
Lemma digit_hex : forall n, hexadecimal (digit n).
Proof.
  intros n. unfold digit, hexadecimal. destruct (nth_in_or_default (N.to_nat n) !"0123456789abcdef" "0"%char) as [I|E]; auto. rewrite E. left. auto.
Qed.
Lemma example_hash_ok : forall s, hash_value (example_hash s).
Proof.
  intros s. unfold example_hash. split.
  - apply Forall_forall. intros c I.
    assert (J : In c (flat_map (fun c => [digit (N_of_ascii c / 16); digit (N_of_ascii c mod 16)]%N) s ++ repeat "0"%char 40)).
    { rewrite <- (firstn_skipn 40). apply in_or_app. left. auto. }
    apply in_app_or in J as [J|J].
    + apply in_flat_map in J as (x & _ & [<-|[<-|[]]]); apply digit_hex.
    + apply repeat_spec in J. subst. left. auto.
  - rewrite firstn_length, app_length, repeat_length. lia.
Qed.

(** An example: the outer template repeats its argument, the inner one gives a text. *)
Definition example_content : str := !"x {{twice|{{y}}}}".
Definition example_tree : list nested := [Plain "x"; Plain " "; Braces (map Plain !"twice|" ++ [Braces [Plain "y"]])]%char.
Definition example_inner : str := example_hash !"{{y}}".
Definition example_answer (r : str) : list piece :=
  if str_eqb r !"{{y}}" then map Chr !"yes" else [Hole example_inner; Chr ","%char; Hole example_inner].

Lemma C13_example_read : exists l, reading !"{{" !"}}" example_content l /\ closed l example_tree.
Proof.
  exists [Other "x"; Other " "; Opening; Other "t"; Other "w"; Other "i"; Other "c"; Other "e"; Other "|"; Opening; Other "y"; Closing; Closing]%char.
  split.
  - unfold example_content. repeat (first [apply (read_open !"{{" !"}}"); [discriminate|] | apply (read_close !"{{" !"}}"); [right; reflexivity|]
     | apply read_other; [reflexivity|reflexivity|] | apply read_end]).
  - unfold example_tree. do 2 apply closed_other.
    apply (closed_pair [Other "t"; Other "w"; Other "i"; Other "c"; Other "e"; Other "|"; Opening; Other "y"; Closing]%char []).
    + do 6 apply balanced_other. apply (balanced_pair [Other "y"%char] []); repeat constructor.
    + do 6 apply closed_other. apply (closed_pair [Other "y"%char] []); repeat constructor.
    + constructor.
Qed.
Example C13_example :
  (forall p q, In p (all_requests example_hash example_tree) -> In q (all_requests example_hash example_tree) -> example_hash p = example_hash q -> p = q) /\
  evaluations example_hash example_answer example_tree = !"x yes,yes".
Proof.
  split; [|vm_compute; reflexivity]. intros p q. vm_compute. intros [<-|[<-|[]]] [<-|[<-|[]]]; auto; discriminate.
Qed.

(** C13 is false for articles that contain the text of a placeholder: then the replacement never ends. *)
Theorem C13_placeholder_text_refuted : forall Hash service, exists content st,
  evaluateTemplates_first Hash service content = (st, Ok content) /\ ~ resolving_ends (placeholders st) content /\
  forall result, ~ resolves (placeholders st) content result.
Proof.
  intros Hash service. exists !"$$TEMPLATE_PLACEHOLDER_", (mkTState [] []). split; [vm_compute; reflexivity|].
  assert (O : forall order c, iteration_order [] order -> replace_round [] order c = c).
  { intros order c [_ O]. destruct order as [|k order]; auto. destruct (O k) as [I _]. destruct I as (v & I); [left; auto|discriminate]. }
  assert (O0 : iteration_order [] []). { split; [constructor|]. intros k. split; [intros []|intros (v & V); discriminate]. }
  cbn [placeholders]. split.
  - intros H. remember !"$$TEMPLATE_PLACEHOLDER_" as content eqn:E. induction H as [content P|content P H IH].
    + subst. discriminate P.
    + apply (IH [] O0). rewrite O; auto.
  - intros result H. remember !"$$TEMPLATE_PLACEHOLDER_" as content eqn:E. induction H as [content P|content order result P I H IH].
    + subst. discriminate P.
    + apply IH. rewrite O; auto.
Qed.
Print Assumptions C13_placeholder_text_refuted.

(** C14: Every request is for a template without nested templates. *)
Theorem C14_requests : forall Hash service content st r, (forall s, hash_value (Hash s)) ->
  evaluateTemplates_first Hash service content = (st, r) ->
  forall q, In q (requests st) -> exists body, q = !"{{" ++ body ++ !"}}" /\ contains !"{{" (body ++ !"}}") = false.
Proof.
  intros Hash service content st r Hh E. destruct (reading_total !"{{" !"}}" content) as (l & R); [discriminate|discriminate|].
  destruct (first_general Hash service content l Hh R) as (st' & r' & E' & Q & _). rewrite E in E'. injection E' as <- <-. exact Q.
Qed.
Print Assumptions C14_requests.

(** C14: For a text in which all templates are closed, every template is requested once per occurrence, nested ones first, until
    the service fails.  (In this way, the result is an error only if a request failed.) *)
Theorem C14_closed : forall Hash service content l tree, (forall s, hash_value (Hash s)) -> reading !"{{" !"}}" content l -> closed l tree ->
  exists st r, evaluateTemplates_first Hash service content = (st, r) /\
   ((r = Ok (pieces_text (map (with_holes Hash) tree)) /\ requests st = rev (all_requests Hash tree)) \/
    (r = Err /\ exists before q after, all_requests Hash tree = before ++ q :: after /\ requests st = q :: rev before /\ service (rev before) q = None)).
Proof. exact first_closed. Qed.
Print Assumptions C14_closed.

(** C14: If a template is not closed, an error is returned (apart from opening braces at the very end of the text). *)
Theorem C14_unclosed_partial : forall Hash service content l, (forall s, hash_value (Hash s)) -> reading !"{{" !"}}" content l ->
  (forall tree, ~ closed l tree) -> exists st, evaluateTemplates_first Hash service content = (st, Err).
Proof.
  intros Hash service content l Hh R N. destruct (first_general Hash service content l Hh R) as (st & r & E & _ & [->|(x & tree & _ & C)]); eauto.
  exfalso. exact (N tree C).
Qed.
Print Assumptions C14_unclosed_partial.

(** C14: Nothing crashes. *)
Theorem C14_total : forall Hash service content, (forall s, hash_value (Hash s)) ->
  exists st, evaluateTemplates_first Hash service content = (st, Err) \/ exists x, evaluateTemplates_first Hash service content = (st, Ok x).
Proof.
  intros Hash service content Hh. destruct (reading_total !"{{" !"}}" content) as (l & R); [discriminate|discriminate|].
  destruct (first_general Hash service content l Hh R) as (st & r & E & _ & [->|(x & tree & -> & _)]); eauto.
Qed.
Print Assumptions C14_total.

(** C14 is false for opening braces at the very end: they are left as they are. *)
Theorem C14_unclosed_at_end_refuted : forall Hash service, exists content, has_suffix !"{{" content = true /\
  evaluateTemplates_first Hash service content = (mkTState [] [], Ok content).
Proof. intros. exists !"a {{". split; reflexivity. Qed.
Print Assumptions C14_unclosed_at_end_refuted.

(** Every text is read in exactly one way. *)
Theorem C14_reading : forall content, exists l, reading !"{{" !"}}" content l /\ forall l', reading !"{{" !"}}" content l' -> l = l'.
Proof.
  intros content. destruct (reading_total !"{{" !"}}" content) as (l & R); [discriminate|discriminate|]. exists l. split; auto.
  intros l' R'. apply (reading_det !"{{" !"}}" ltac:(discriminate) ltac:(discriminate) content); auto.
Qed.
Print Assumptions C14_reading.

Example C14_example : exists st, evaluateTemplates_first example_hash (fun _ r => Some (pieces_text (example_answer r))) example_content
  = (st, Ok (!"x " ++ placeholder (example_hash (!"{{twice|" ++ placeholder example_inner ++ !"}}")))) /\
  requests st = [!"{{twice|" ++ placeholder example_inner ++ !"}}"; !"{{y}}"].
Proof. eexists. vm_compute. split; reflexivity. Qed.
Example C14_example_unclosed : exists l, reading !"{{" !"}}" !"{{a" l /\ forall tree, ~ closed l tree.
Proof.
  exists [Opening; Other "a"%char]. split.
  - apply (read_open !"{{" !"}}"); [discriminate|]. apply read_other; [reflexivity|reflexivity|]. apply read_end.
  - intros tree C. inversion C as [| | | |l1 l2 t1 t2 B H1 H2 E]. destruct l1 as [|x [|y l1]]; try discriminate E.
Qed.
