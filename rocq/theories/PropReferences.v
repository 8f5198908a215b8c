(** * Footnotes (C21, C22) *)

From Coq Require Import Ascii String.
From Coq Require Import List Arith ZArith Bool Lia Sorted.
From Verif Require Import GoStr GoStrFacts ConfigModel TokenModel ReferenceModel TokenizerModel.
From Verif Require Import TokenSpec PassSpec ReferenceSpec TokenProofs RefineProofs HeadingProofs RefNumberProofs ReferenceProofs PropPasses.
Import ListNotations.
Local Open Scope list_scope.

Lemma written_weaken : forall (T1 T2 : str -> Token -> Prop) (P1 P2 : str -> str -> Prop), (forall k v, T1 k v -> T2 k v) -> (forall s c, P1 s c -> P2 s c) ->
  forall before out elements result, written T1 P1 before out elements result -> written T2 P2 before out elements result.
Proof.
  intros T1 T2 P1 P2 HT HP before out elements result W. induction W as [|? ? ? ? ? ? ? ? ? ? E T W IH|? ? a e g texts keys out' n after rest result Ea Eg L F Eo Ne W IH].
  - constructor.
  - eapply written_mark; eauto.
  - eapply written_list; eauto. clear -F HT HP. induction F as [|k p ks ps (c & T & P) F IH]; constructor; eauto.
Qed.

(** Every footnote of a well-formed text is replaced by its number, and every list of footnotes by the texts it has to show, with their
    numbers.  (Missing: texts that are not well-formed in the sense of the specification although MediaWiki accepts them, see below.) *)
Theorem C21_C22_written_partial : forall cfg fuel first elements result t t', unique t -> document_ok first elements ->
  parseReferences (tokenizeContent cfg fuel) (document_text first elements) t = Ok (result, t') ->
  written (fun key token => lookup_token key (tokenMap t') = Some token) (parsed_as (tokenizeContent cfg fuel) t') [] first elements result.
Proof.
  intros cfg fuel first elements result t t' U D E.
  destruct (references_written _ (runs cfg fuel) first elements t D (ok_false t U) result t' E) as ((U' & _) & _ & W).
  eapply written_weaken; [| |exact W].
  - intros k v. apply In_key. auto.
  - intros s c. apply parsed_spec. auto.
Qed.
Print Assumptions C21_C22_written_partial.

(** Two footnotes of a group have the same number exactly when they have the same name. *)
Lemma seen_mono : forall n g a b, seen n (footnotes g a) = true -> seen n (footnotes g (a ++ b)) = true /\ position n (footnotes g (a ++ b)) = position n (footnotes g a).
Proof.
  intros n g a b. revert a. induction b as [|e b IH]; intros a S; [rewrite app_nil_r; auto|].
  replace (a ++ e :: b) with ((a ++ [e]) ++ b) by (rewrite <- app_assoc; auto).
  assert (S1 : seen n (footnotes g (a ++ [e])) = true /\ position n (footnotes g (a ++ [e])) = position n (footnotes g a)).
  { rewrite footnotes_snoc. destruct e as [g' [m|] body|g']; cbn [add_footnote]; auto; destruct (opt_eqb g g'); auto.
    - destruct (existsb _ _); auto. rewrite seen_app, S, position_app; auto.
    - rewrite seen_app, S, position_app; auto. }
  destruct S1 as [S1 P1]. destruct (IH (a ++ [e]) S1) as [S2 P2]. split; auto. congruence.
Qed.

Lemma mark_seen : forall g n body p, seen n (footnotes g (p ++ [Mark g (Some n) body])) = true /\ position n (footnotes g (p ++ [Mark g (Some n) body])) = number p g (Some n).
Proof.
  intros g n body p. rewrite footnotes_snoc. cbn [add_footnote number]. rewrite opt_eqb_refl. change (existsb (opt_eqb (Some n)) (footnotes g p)) with (seen n (footnotes g p)).
  destruct (seen n (footnotes g p)) eqn:S; auto. rewrite seen_app. cbn [opt_eqb]. rewrite str_eqb_refl, orb_true_r. split; auto. rewrite (position_unseen _ _ S).
  clear -S. induction (footnotes g p) as [|x l IH]; cbn [app position length].
  - rewrite opt_eqb_refl. auto.
  - unfold seen in S. cbn [existsb] in S. apply orb_false_iff in S as [S1 S2]. rewrite S1. f_equal. auto.
Qed.

(** What is at the number of a mark *)
Lemma mark_entry : forall g name body p q, nth_error (footnotes g (p ++ Mark g name body :: q)) (number p g name) = Some name.
Proof.
  intros g name body p q. assert (H : nth_error (footnotes g (p ++ [Mark g name body])) (number p g name) = Some name).
  { destruct name as [n|].
    - destruct (mark_seen g n body p) as [S <-]. apply position_nth. auto.
    - rewrite footnotes_snoc. cbn [add_footnote number]. rewrite opt_eqb_refl, nth_error_app2, Nat.sub_diag by auto. reflexivity. }
  replace (p ++ Mark g name body :: q) with ((p ++ [Mark g name body]) ++ q) by (rewrite <- app_assoc; auto). clear -H.
  revert H. generalize (p ++ [Mark g name body]). induction q as [|e q IH]; intros l H; [rewrite app_nil_r; auto|].
  replace (l ++ e :: q) with ((l ++ [e]) ++ q) by (rewrite <- app_assoc; auto). apply IH. rewrite footnotes_snoc.
  assert (L : number p g name < length (footnotes g l)) by (apply nth_error_Some; congruence).
  destruct e as [g' [m|] body'|g']; cbn [add_footnote]; auto; destruct (opt_eqb g g'); auto.
  - destruct (existsb _ _); auto. rewrite nth_error_app1; auto.
  - rewrite nth_error_app1; auto.
Qed.

Theorem C21_same_number : forall g past name1 body1 between name2,
  number past g name1 = number (past ++ Mark g name1 body1 :: between) g name2 <-> exists n, name1 = Some n /\ name2 = Some n.
Proof.
  intros g past name1 body1 between name2. split.
  - intros E. pose proof (mark_entry g name1 body1 past (between ++ [Mark g name2 None])) as H1.
    pose proof (mark_entry g name2 None (past ++ Mark g name1 body1 :: between) []) as H2. rewrite <- app_assoc in H2. cbn [app] in H2. rewrite E in H1.
    rewrite H1 in H2. injection H2 as ->. destruct name2 as [n|]; [eauto|]. exfalso. cbn [number] in E.
    pose proof (number_lt past g None body1) as L. cbn [number] in L. rewrite E in L.
    pose proof (footnotes_length g (past ++ [Mark g None body1]) between) as L2. rewrite <- app_assoc in L2. cbn [app] in L2. lia.
  - intros (n & -> & ->). destruct (mark_seen g n body1 past) as [S P].
    destruct (seen_mono n g (past ++ [Mark g (Some n) body1]) between S) as [_ P2]. rewrite <- app_assoc in P2. cbn [app number] in *. congruence.
Qed.
Print Assumptions C21_same_number.

(** The numbers are consecutive, in order of first appearance: all smaller numbers belong to earlier footnotes. *)
Theorem C21_consecutive : forall g past name n, n < number past g name ->
  exists past1 name1 body1 past2, past = past1 ++ Mark g name1 body1 :: past2 /\ number past1 g name1 = n.
Proof.
  intros g past name n H. assert (L : n < length (footnotes g past)).
  { destruct name as [m|]; cbn [number] in H; auto. destruct (seen m (footnotes g past)) eqn:S.
    - apply position_seen in S. lia.
    - rewrite position_unseen in H; auto. }
  clear H name. induction past as [|e past IH] using rev_ind; [cbn in L; lia|].
  destruct (Nat.lt_ge_cases n (length (footnotes g past))) as [L'|L'].
  - destruct (IH L') as (p1 & nm & b & p2 & -> & E). exists p1, nm, b, (p2 ++ [e]). rewrite <- app_assoc. auto.
  - rewrite footnotes_snoc in L. destruct e as [g' name body|g']; cbn [add_footnote] in L; [|lia]. destruct (opt_eqb g g') eqn:Eg; [|lia]. apply opt_eqb_eq in Eg. subst g'.
    exists past, name, body, []. split; auto. destruct name as [m|]; cbn [number].
    + destruct (existsb (opt_eqb (Some m)) (footnotes g past)) eqn:S; [lia|]. rewrite app_length in L. cbn [length] in L. rewrite position_unseen by exact S. lia.
    + rewrite app_length in L. cbn [length] in L. lia.
Qed.
Print Assumptions C21_consecutive.

(** The list behind the text of a footnote shows a text for this footnote exactly once. *)
Lemma last_definition : forall g n since past, ~ In (Listing g) since -> (exists name body, number past g name = n /\ exists q, since = Mark g name (Some body) :: q) ->
  exists past' name' body' since', past ++ since = past' ++ Mark g name' (Some body') :: since' /\ number past' g name' = n /\ ~ In (Listing g) since' /\
    (forall since1 name2 body2 since2, since' = since1 ++ Mark g name2 (Some body2) :: since2 -> number (past' ++ Mark g name' (Some body') :: since1) g name2 <> n).
Proof.
  intros g n since. remember (length since) as k eqn:K. assert (Hk : length since <= k) by lia. clear K. revert since Hk.
  induction k as [|k IH]; intros since Hk past NL (name & body & E & q & ->); cbn [length] in Hk; [lia|].
  assert (D : (exists since1 name2 body2 since2, q = since1 ++ Mark g name2 (Some body2) :: since2 /\ number (past ++ Mark g name (Some body) :: since1) g name2 = n) \/
              (forall since1 name2 body2 since2, q = since1 ++ Mark g name2 (Some body2) :: since2 -> number (past ++ Mark g name (Some body) :: since1) g name2 <> n)).
  { clear IH Hk NL. assert (G : forall q2 q1, q = q1 ++ q2 ->
      (exists s1 name2 body2 s2, q2 = s1 ++ Mark g name2 (Some body2) :: s2 /\ number (past ++ Mark g name (Some body) :: q1 ++ s1) g name2 = n) \/
      (forall s1 name2 body2 s2, q2 = s1 ++ Mark g name2 (Some body2) :: s2 -> number (past ++ Mark g name (Some body) :: q1 ++ s1) g name2 <> n)).
    { induction q2 as [|x q2 IH]; intros q1 Eq; [right; intros [|? ?] ? ? ? X; discriminate X|].
      assert (Hx : (exists name2 body2, x = Mark g name2 (Some body2) /\ number (past ++ Mark g name (Some body) :: q1) g name2 = n) \/
                   (forall name2 body2, x = Mark g name2 (Some body2) -> number (past ++ Mark g name (Some body) :: q1) g name2 <> n)).
      { destruct x as [g' m [b|]|g']; try (right; intros; discriminate). destruct (opt_eqb g g') eqn:Eg.
        - apply opt_eqb_eq in Eg. subst g'. destruct (Nat.eq_dec (number (past ++ Mark g name (Some body) :: q1) g m) n); [left; eauto|].
          right. intros ? ? X. injection X as <- <-. auto.
        - apply opt_eqb_neq in Eg. right. intros ? ? X. injection X as X _ _. congruence. }
      destruct Hx as [(m & b & -> & X)|Hx].
      - left. exists [], m, b, q2. rewrite app_nil_r. auto.
      - destruct (IH (q1 ++ [x])) as [(s1 & m & b & s2 & -> & X)|H].
        + rewrite <- app_assoc. auto.
        + left. exists (x :: s1), m, b, s2. rewrite <- app_assoc in X. auto.
        + right. intros [|y s1] m b s2 X.
          * injection X as -> _. rewrite app_nil_r. apply (Hx m b). auto.
          * injection X as <- X. specialize (H s1 m b s2 X). rewrite <- app_assoc in H. auto. }
    apply (G q []). auto. }
  destruct D as [(s1 & m & b & s2 & -> & X)|D].
  - destruct (IH (Mark g m (Some b) :: s2)) with (past := past ++ Mark g name (Some body) :: s1) as (p' & n' & b' & s' & E' & H').
    + rewrite app_length in Hk. cbn [length] in *. lia.
    + intros I. apply NL. right. apply in_or_app. auto.
    + exists m, b. eauto.
    + exists p', n', b', s'. split; auto. rewrite <- E', <- app_assoc. auto.
  - exists past, name, body, q. split; auto. split; auto. split; auto. intros I. apply NL. right. auto.
Qed.

Theorem C22_listed_once : forall g past name body since texts, ~ In (Listing g) since ->
  listed (past ++ Mark g name (Some body) :: since) g texts -> exists! shown_text, In (number past g name, shown_text) texts.
Proof.
  intros g past name body since texts NL [S L].
  destruct (last_definition g (number past g name) (Mark g name (Some body) :: since) past) as (p' & n' & b' & s' & E & H).
  - intros [I|I]; [discriminate|auto].
  - eauto.
  - exists b'. split.
    + apply L. exists p', n', s'. auto.
    + intros b2 I2. assert (I1 : In (number past g name, b') texts) by (apply L; exists p', n', s'; auto).
      clear -S I1 I2. induction texts as [|[m c] texts IH]; [destruct I1|]. cbn [map fst] in S. inversion S as [|? ? S' F]; subst. rewrite Forall_forall in F.
      assert (X : forall x, In (m, x) texts -> False) by (intros x I; apply (in_map fst) in I; cbn in I; apply F in I; lia).
      destruct I1 as [I1|I1], I2 as [I2|I2]; auto.
      * congruence.
      * injection I1 as -> ->. exfalso. eauto.
      * injection I2 as -> ->. exfalso. eauto.
Qed.
Print Assumptions C22_listed_once.

(** A text with two groups, footnotes with and without names and texts, and two kinds of lists *)
Definition unnamed : attributes := mkAttributes [] 0.
Definition named (n : str) : attributes := mkAttributes [mkAttribute !"name" true n] 1.
Definition grouped (g n : str) : attributes := mkAttributes [mkAttribute !"group" false g; mkAttribute !"name" true n] 0.
Definition example_elements : list (element * str) :=
  [(Footnote (mkReference (named !"x/y") None), !" b ");
   (Footnote (mkReference unnamed (Some !"one")), !" c ");
   (Footnote (mkReference (grouped !"note" !"x/y") (Some !"two")), !" d" ++ nl);
   (ShortList (mkAttributes [mkAttribute !"group" false !"note"] 1), nl ++ !"e <small>f</small> ");
   (Footnote (mkReference (named !"x/y") None), nl);
   (LongList unnamed nl [(mkReference (named !"x/y") (Some !"three"), nl)], nl)].

Definition example_text : str :=
  !"a <ref name=" ++ dq ++ !"x/y" ++ dq ++ !" /> b <ref>one</ref> c <ref group=note name=" ++ dq ++ !"x/y" ++ dq ++ !">two</ref> d" ++ nl ++
  !"<references group=note />" ++ nl ++ !"e <small>f</small> <ref name=" ++ dq ++ !"x/y" ++ dq ++ !" />" ++ nl ++
  !"<references>" ++ nl ++ !"<ref name=" ++ dq ++ !"x/y" ++ dq ++ !" >three</ref>" ++ nl ++ !"</references>" ++ nl.

Ltac free := let I := fresh in intros I; vm_compute in I; repeat (destruct I as [I|I]; [discriminate I|]); destruct I.
Ltac attr := split; [cbn; auto|split; [discriminate|split; [|split; [cbn [attr_quoted]; let X := fresh in intros X; try discriminate X; split; free|discriminate]]]];
  let c := fresh in let I := fresh in intros c I; vm_compute in I; repeat (destruct I as [<-|I]; [free|]); destruct I.

Lemma ok_unnamed : attributes_ok unnamed.
Proof. split; constructor. Qed.
Lemma ok_named : attributes_ok (named !"x/y").
Proof. split; cbn [given named map attr_name]; [constructor; [attr|constructor]|constructor; [free|constructor]]. Qed.
Lemma ok_grouped : attributes_ok (grouped !"note" !"x/y").
Proof. split; cbn [given grouped map attr_name]; [constructor; [attr|constructor; [attr|constructor]]|constructor; [free|constructor; [free|constructor]]]. Qed.
Lemma ok_note : attributes_ok (mkAttributes [mkAttribute !"group" false !"note"] 1).
Proof. split; cbn [given map attr_name]; [constructor; [attr|constructor]|constructor; [free|constructor]]. Qed.

Example C21_C22_example : document_text !"a " example_elements = example_text /\ document_ok !"a " example_elements /\
  exists result t', parseReferences (tokenizeContent default_config 3) example_text NewTokenizer = Ok (result, t') /\
    result = !"a " ++ token_key TOKEN_REF_USAGE 0 ++ !" b " ++ token_key TOKEN_REF_USAGE 1 ++ !" c " ++ token_key TOKEN_REF_USAGE 2 ++ !" d" ++ nl ++
             token_key TOKEN_REF_DEF 3 ++ nl ++ !"e <small>f</small> " ++ token_key TOKEN_REF_USAGE 4 ++ nl ++
             token_key TOKEN_REF_DEF 5 ++ nl ++ token_key TOKEN_REF_DEF 6 ++ nl /\
    tokenMap t' = [(token_key TOKEN_REF_DEF 6, RefDefinitionToken 1 !"one"); (token_key TOKEN_REF_DEF 5, RefDefinitionToken 0 !"three");
                   (token_key TOKEN_REF_USAGE 4, RefUsageToken 0); (token_key TOKEN_REF_DEF 3, RefDefinitionToken 0 !"two");
                   (token_key TOKEN_REF_USAGE 2, RefUsageToken 0); (token_key TOKEN_REF_USAGE 1, RefUsageToken 1); (token_key TOKEN_REF_USAGE 0, RefUsageToken 0)].
Proof.
  split; [vm_compute; reflexivity|]. split.
  - split; [split; reflexivity|]. split.
    + unfold example_elements. apply Forall_cons; [|apply Forall_cons; [|apply Forall_cons; [|apply Forall_cons; [|apply Forall_cons; [|apply Forall_cons; [|apply Forall_nil]]]]]];
        (split; [|split; reflexivity]); cbn [element_ok fst snd].
      * split; [apply ok_named|discriminate].
      * split; [apply ok_unnamed|split; reflexivity].
      * split; [apply ok_grouped|split; reflexivity].
      * apply ok_note.
      * split; [apply ok_named|discriminate].
      * split; [apply ok_unnamed|]. split; [split; [discriminate|free]|]. apply Forall_cons; [|apply Forall_nil]. cbn [fst snd]. split.
        -- split; [apply ok_named|split; reflexivity].
        -- split; [discriminate|free].
    + unfold example_elements. repeat (apply spaced_next; [intros X; try destruct X; cbn; lia|discriminate|]). apply spaced_last.
  - eexists. eexists. split; [vm_compute; reflexivity|]. split; vm_compute; reflexivity.
Qed.

(** Counterexamples to the unrestricted claims.  The footnotes within a list follow each other immediately: the program crashes. *)
Theorem C22_refuted_adjacent :
  parseReferences (tokenizeContent default_config 3) !"<references> <ref name=a>A</ref><ref name=b>B</ref></references>" NewTokenizer = Panic.
Proof. vm_compute. reflexivity. Qed.
Print Assumptions C22_refuted_adjacent.

(** A footnote directly behind a list is not seen in the first round and numbered anew in the second one: two footnotes with different names
    have the same number. *)
Theorem C21_refuted : exists t',
  tokenizeContent default_config 3 (!"x<ref name=a>A</ref>" ++ nl ++ nl ++ !"<references group=n /><ref name=b /> <references />") NewTokenizer =
    Ok (!"x" ++ token_key TOKEN_REF_USAGE 0 ++ token_key TOKEN_REF_USAGE 2 ++ !" " ++ nl ++ token_key TOKEN_REF_DEF 1, t') /\
  lookup_token (token_key TOKEN_REF_USAGE 0) (tokenMap t') = Some (RefUsageToken 0) /\
  lookup_token (token_key TOKEN_REF_USAGE 2) (tokenMap t') = Some (RefUsageToken 0).
Proof. eexists. split; [vm_compute; reflexivity|]. split; vm_compute; reflexivity. Qed.
Print Assumptions C21_refuted.

(** Without a list, or behind the last list, the text of a footnote is lost. *)
Theorem C22_refuted_no_list : exists t',
  tokenizeContent default_config 3 !"a<ref>b</ref>" NewTokenizer = Ok (!"a" ++ token_key TOKEN_REF_USAGE 0, t') /\
  tokenMap t' = [(token_key TOKEN_REF_USAGE 0, RefUsageToken 0)].
Proof. eexists. split; vm_compute; reflexivity. Qed.
Print Assumptions C22_refuted_no_list.

(** The first one of two texts for a name is lost. *)
Theorem C22_refuted_twice : exists t',
  tokenizeContent default_config 3 !"x<ref name=a>A</ref> y<ref name=a>B</ref> <references />" NewTokenizer =
    Ok (!"x" ++ token_key TOKEN_REF_USAGE 0 ++ !" y" ++ token_key TOKEN_REF_USAGE 1 ++ !" " ++ nl ++ token_key TOKEN_REF_DEF 2, t') /\
  tokenMap t' = [(token_key TOKEN_REF_DEF 2, RefDefinitionToken 0 !"B"); (token_key TOKEN_REF_USAGE 1, RefUsageToken 0); (token_key TOKEN_REF_USAGE 0, RefUsageToken 0)].
Proof. eexists. split; vm_compute; reflexivity. Qed.
Print Assumptions C22_refuted_twice.
