(** * Ignored and trailing templates *)

From Coq Require Import Ascii String.
From Coq Require Import List Arith Bool Lia.
From Verif Require Import GoStr GoStrFacts TextFacts UtilModel BracketModel BracketSpec BracketProofs ConfigModel CleanerModel CleanerSpec.
Import ListNotations.
Local Open Scope list_scope.

Lemma ttexts_cons : forall e l, templated_texts (e :: l) = templated_text e ++ templated_texts l.
Proof. reflexivity. Qed.

(** ** Names *)

Lemma re_space_spec : forall c, re_space c = true <-> blank_character c.
Proof.
  intros c. unfold re_space, blank_character. rewrite mem_str_In. cbn [In].
  split; intros H; repeat (destruct H as [H|H]); try contradiction; try (injection H as <-); subst; auto 10.
Qed.

Lemma name_char_spec : forall c, name_char c = false <-> In c [nl_char; "|"%char; "}"%char].
Proof.
  intros c. unfold name_char. rewrite !andb_false_iff, !negb_false_iff, !Ascii.eqb_eq. cbn [In].
  split; intros H; repeat (destruct H as [H|H]); subst; auto 10; contradiction.
Qed.

Lemma take_while_stop : forall f a c s, Forall (fun x => f x = true) a -> f c = false -> take_while f (a ++ c :: s) = a.
Proof.
  induction a as [|x a IH]; intros c s F H; cbn [app take_while].
  - rewrite H. auto.
  - apply Forall_cons_iff in F as [-> F]. rewrite IH; auto.
Qed.

Lemma drop_while_stop : forall f a c s, Forall (fun x => f x = true) a -> f c = false -> drop_while f (a ++ c :: s) = c :: s.
Proof.
  induction a as [|x a IH]; intros c s F H; cbn [app drop_while].
  - rewrite H. auto.
  - apply Forall_cons_iff in F as [-> F]. rewrite IH; auto.
Qed.

Definition good_name (name : str) : Prop :=
  (exists c n, name = c :: n /\ ~ blank_character c) /\
  (forall c, In c [nl_char; "|"%char; "{"%char; "}"%char] -> ~ In c name).

Lemma name_at_spec : forall space name x s, Forall blank_character space -> good_name name -> In x [nl_char; "|"%char; "}"%char] ->
  template_name_at (!"{{" ++ space ++ name ++ x :: s) = Some name.
Proof.
  intros space name x s Hs ((c & n & -> & Hc) & Hn) Hx. unfold template_name_at.
  change (has_prefix !"{{" (!"{{" ++ space ++ (c :: n) ++ x :: s)) with true. cbn iota.
  change (skipn 2 (!"{{" ++ space ++ (c :: n) ++ x :: s)) with (space ++ (c :: n) ++ x :: s).
  change ((c :: n) ++ x :: s) with (c :: (n ++ x :: s)).
  rewrite drop_while_stop.
  - change (c :: n ++ x :: s) with ((c :: n) ++ x :: s). rewrite take_while_stop; auto.
    + apply Forall_forall. intros y Iy. destruct (name_char y) eqn:E; auto. apply name_char_spec in E. exfalso.
      apply (Hn y); auto. cbn [In] in *. intuition.
    + apply name_char_spec; auto.
  - eapply Forall_impl; [|exact Hs]. intros a. apply re_space_spec.
  - destruct (re_space c) eqn:E; auto. apply re_space_spec in E. contradiction.
Qed.

Lemma template_name_spec : forall space name x s, Forall blank_character space -> good_name name -> In x [nl_char; "|"%char; "}"%char] ->
  template_name (!"{{" ++ space ++ name ++ x :: s) = Some name.
Proof.
  intros. pose proof (name_at_spec space name x s H H0 H1) as E. destruct (!"{{" ++ space ++ name ++ x :: s) eqn:Q; [discriminate|].
  cbn [template_name]. rewrite E. auto.
Qed.

(** The key is the one of the configuration *)
Lemma HasAnyPrefix_spec : forall key names, HasAnyPrefix key (map to_lower names) = true <-> configured_prefix key names.
Proof.
  intros key names. unfold HasAnyPrefix, configured_prefix. rewrite existsb_exists. split.
  - intros (p & I & P). apply in_map_iff in I as (n & <- & I). apply has_prefix_spec in P as (t & ->). eauto.
  - intros (n & t & I & ->). exists (to_lower n). split; [apply in_map; auto|]. apply has_prefix_spec. eauto.
Qed.

Definition is_ignored (cfg : configuration) (name : str) : bool :=
  HasAnyPrefix (template_key name) (map to_lower (lists cfg IgnoredTemplates)) ||
  HasAnyPrefix (template_key name) (map to_lower (lists cfg TrailingTemplates)).

Lemma is_ignored_spec : forall cfg name, is_ignored cfg name = true <-> ignored_template cfg name.
Proof. intros. unfold is_ignored, ignored_template. rewrite orb_true_iff, !HasAnyPrefix_spec. tauto. Qed.

Definition is_trailing (cfg : configuration) (name : str) : bool :=
  mem_str (template_key name) (map to_lower (lists cfg TrailingTemplates)).

Lemma is_trailing_spec : forall cfg name, is_trailing cfg name = true <-> trailing_template cfg name.
Proof.
  intros. unfold is_trailing, trailing_template. rewrite mem_str_In, in_map_iff. split; intros (n & A & C); exists n; auto.
Qed.

Lemma trailing_ignored : forall cfg name, trailing_template cfg name -> ignored_template cfg name.
Proof. intros cfg name (n & I & E). right. exists n, []. rewrite app_nil_r. auto. Qed.

(** ** Reading templates *)

Fixpoint template_items (e : templated) : list item :=
  match e with
  | Char c => [Other c]
  | Template space name arguments => Opening :: map Other space ++ map Other name ++ concat (map template_items arguments) ++ [Closing]
  end.
Definition template_itemss (l : list templated) : list item := concat (map template_items l).

Lemma no_double_prefix : forall d c s, (c = d -> has_prefix [d] s = false) -> has_prefix [d; d] (c :: s) = false.
Proof.
  intros d c s H. cbn [has_prefix]. destruct (Ascii.eqb_spec d c) as [<-|N]; [|reflexivity]. specialize (H eq_refl).
  cbn [has_prefix] in H. destruct s; auto. 
Qed.

Lemma read_chars : forall a s l, ~ In "{"%char a -> ~ In "}"%char a -> reading !"{{" !"}}" s l ->
  reading !"{{" !"}}" (a ++ s) (map Other a ++ l).
Proof.
  induction a as [|c a IH]; intros s l H1 H2 R; auto. cbn [app map].
  apply read_other; [| |apply IH; auto; intros K; [apply H1|apply H2]; right; auto].
  - apply no_double_prefix. intros ->. exfalso. apply H1. left. auto.
  - apply no_double_prefix. intros ->. exfalso. apply H2. left. auto.
Qed.

Lemma blank_no_brace : forall space, Forall blank_character space -> ~ In "{"%char space /\ ~ In "}"%char space.
Proof.
  intros space H. split; intros I; rewrite Forall_forall in H; apply H in I; unfold blank_character in I; cbn [In] in I;
    repeat (destruct I as [I|I]); try discriminate; auto.
Qed.

Lemma name_no_brace : forall name, good_name name -> ~ In "{"%char name /\ ~ In "}"%char name.
Proof. intros name (_ & H). split; apply H; cbn [In]; auto 10. Qed.

Lemma templates_reading : forall l k, proper_templates l k -> forall r, reading !"{{" !"}}" k r ->
  reading !"{{" !"}}" (templated_texts l ++ k) (template_itemss l ++ r).
Proof.
  induction 1 as [k|c l k H1 H2 H IH|space name arguments l k Hs Hn1 Hn2 Ha H1 IH1 H2 IH2]; intros r R; auto.
  - rewrite ttexts_cons. unfold template_itemss. cbn [templated_text template_items map concat app].
    apply read_other; [apply no_double_prefix; auto|apply no_double_prefix; auto|apply IH; auto].
  - rewrite ttexts_cons. unfold template_itemss. cbn [templated_text template_items map concat].
    rewrite <- !app_assoc. destruct (blank_no_brace space Hs). destruct (name_no_brace name (conj Hn1 Hn2)).
    cbn [app]. rewrite <- !app_assoc. apply (read_open !"{{" !"}}"); [discriminate|].
    apply read_chars; auto. apply read_chars; auto.
    change (!"}}" ++ concat (map templated_text l) ++ k) with (!"}}" ++ templated_texts l ++ k). apply IH1.
    apply (read_close !"{{" !"}}"); [right; reflexivity|]. apply IH2; auto.
Qed.

Lemma balanced_others : forall a l, balanced l -> balanced (map Other a ++ l).
Proof. induction a; cbn; auto. intros. apply balanced_other; auto. Qed.

Lemma templates_balanced : forall l k, proper_templates l k -> balanced (template_itemss l).
Proof.
  induction 1 as [k|c l k H1 H2 H IH|space name arguments l k Hs Hn1 Hn2 Ha H1 IH1 H2 IH2].
  - apply balanced_empty.
  - apply balanced_other; auto.
  - unfold template_itemss. cbn [template_items map concat app].
    replace ((map Other space ++ map Other name ++ concat (map template_items arguments) ++ [Closing]) ++ concat (map template_items l))
      with ((map Other space ++ map Other name ++ template_itemss arguments) ++ Closing :: template_itemss l).
    + apply balanced_pair; auto. apply balanced_others, balanced_others. auto.
    + unfold template_itemss. rewrite <- !app_assoc. reflexivity.
Qed.

Lemma items_others : forall a, items_text !"{{" !"}}" (map Other a) = a.
Proof. induction a; cbn; auto. f_equal. auto. Qed.

Lemma items_app : forall o c a b, items_text o c (a ++ b) = items_text o c a ++ items_text o c b.
Proof. intros. unfold items_text. rewrite map_app, concat_app. auto. Qed.

Lemma titems_text : forall l k, proper_templates l k -> items_text !"{{" !"}}" (template_itemss l) = templated_texts l.
Proof.
  induction 1 as [k|c l k H1 H2 H IH|space name arguments l k Hs Hn1 Hn2 Ha H1 IH1 H2 IH2]; auto.
  - change (template_itemss (Char c :: l)) with ([Other c] ++ template_itemss l). rewrite items_app, IH. reflexivity.
  - change (template_itemss (Template space name arguments :: l)) with
      ([Opening] ++ (map Other space ++ map Other name ++ template_itemss arguments ++ [Closing]) ++ template_itemss l).
    rewrite !items_app, IH2, IH1, !items_others, ttexts_cons. cbn [templated_text]. rewrite <- !app_assoc. reflexivity.
Qed.

(** The end of a template *)
Lemma close_template : forall P space name arguments k, Forall blank_character space -> good_name name ->
  proper_templates arguments (!"}}" ++ k) ->
  FindCorrespondingCloseToken (P ++ !"{{" ++ space ++ name ++ templated_texts arguments ++ !"}}" ++ k) (length P + 2) !"{{" !"}}"
  = Some (length P + 2 + length (space ++ name ++ templated_texts arguments)).
Proof.
  intros P space name arguments k Hs Hn Ha. apply findClose_spec; try discriminate.
  - rewrite !app_length. cbn. lia.
  - split; [rewrite !app_length; cbn; lia|].
    destruct (reading_total !"{{" !"}}" k) as (r & R); try discriminate.
    exists (map Other space ++ map Other name ++ template_itemss arguments), r.
    destruct (blank_no_brace space Hs). destruct (name_no_brace name Hn). split; [|split].
    + replace (skipn (length P + 2) (P ++ !"{{" ++ space ++ name ++ templated_texts arguments ++ !"}}" ++ k))
        with (space ++ name ++ templated_texts arguments ++ !"}}" ++ k).
      2:{ rewrite skipn_app, skipn_all2 by lia. replace (length P + 2 - length P) with 2 by lia. reflexivity. }
      rewrite <- !app_assoc. apply read_chars; auto. apply read_chars; auto. apply templates_reading; auto.
      apply (read_close !"{{" !"}}"); auto.
    + apply balanced_others, balanced_others. eapply templates_balanced; eauto.
    + rewrite !items_app, !items_others. erewrite titems_text; eauto.
Qed.

(** ** Text that has been passed *)

Definition behind_name (x : ascii) : Prop := In x [nl_char; "|"%char; "}"%char].

(** In the text that has been passed, two opening braces are the beginning of a template that is not ignored. *)
Definition next_ok (cfg : configuration) (b rest : str) : Prop :=
  (exists c b', b = c :: b' /\ c <> "{"%char) \/
  (b = [] /\ has_prefix !"{" rest = false) \/
  (exists space name b', b = "{"%char :: space ++ name ++ b' /\ Forall blank_character space /\ good_name name /\
     is_ignored cfg name = false /\
     ((exists x b2, b' = x :: b2 /\ behind_name x) \/ (b' = [] /\ exists x r, rest = x :: r /\ behind_name x))).
Definition passed (cfg : configuration) (P rest : str) : Prop := forall a b, P = a ++ "{"%char :: b -> next_ok cfg b rest.

Lemma passed_snoc : forall cfg P c rest, passed cfg P (c :: rest) -> (c = "{"%char -> has_prefix !"{" rest = false) ->
  passed cfg (P ++ [c]) rest.
Proof.
  intros cfg P c rest H N a b E. destruct (exists_last (l := "{"%char :: b)) as (b0 & z & Eb); [discriminate|].
  rewrite Eb, app_assoc in E. apply app_inj_tail in E as [E <-].
  destruct b0 as [|y b0].
  - injection Eb as Ez ->. symmetry in Ez. right. left. auto.
  - injection Eb as <- ->. destruct (H a b0 E) as [(d & b' & -> & D)|[(-> & R)|(space & name & b' & -> & Hs & Hn & I & [(x & b2 & -> & X)|(-> & x & r & [= <- <-] & X)])]].
    + left. exists d, (b' ++ [c]). auto.
    + left. exists c, []. split; auto. intros ->. discriminate.
    + right. right. exists space, name, ((x :: b2) ++ [c]). split; [cbn [app]; rewrite <- !app_assoc; auto|].
      repeat (split; auto). left. exists x, (b2 ++ [c]). auto.
    + right. right. exists space, name, [c]. split; [cbn [app]; rewrite app_nil_r, <- !app_assoc; auto|].
      repeat (split; auto). left. eauto.
Qed.

Lemma passed_chars : forall cfg s P rest, ~ In "{"%char s -> passed cfg P (s ++ rest) -> passed cfg (P ++ s) rest.
Proof.
  induction s as [|c s IH]; intros P rest N H.
  - rewrite app_nil_r. auto.
  - change (c :: s) with ([c] ++ s). rewrite app_assoc. apply IH; [intros K; apply N; right; auto|].
    apply passed_snoc; auto. intros ->. exfalso. apply N. left. auto.
Qed.

Lemma next_ok_weaken : forall cfg b rest rest' s, next_ok cfg b ("{"%char :: rest) -> next_ok cfg (b ++ s) rest'.
Proof.
  intros cfg b rest rest' s [(d & b' & -> & D)|[(-> & R)|(space & name & b' & -> & Hs & Hn & I & [(x & b2 & -> & X)|(-> & x & r & [= <- <-] & X)])]].
  - left. exists d, (b' ++ s). auto.
  - discriminate.
  - right. right. exists space, name, ((x :: b2) ++ s). split; [cbn [app]; rewrite <- !app_assoc; auto|].
    repeat (split; auto). left. exists x, (b2 ++ s). auto.
  - exfalso. unfold behind_name in X. cbn [In] in X. repeat (destruct X as [X|X]); try discriminate; auto.
Qed.

Lemma passed_remove : forall cfg P rest rest', passed cfg P ("{"%char :: rest) -> passed cfg P rest'.
Proof. intros cfg P rest rest' H a b E. rewrite <- (app_nil_r b). eapply next_ok_weaken. apply (H a b E). Qed.

Lemma passed_header : forall cfg P space name x r rest, passed cfg P ("{"%char :: rest) -> Forall blank_character space -> good_name name ->
  is_ignored cfg name = false -> behind_name x -> passed cfg (P ++ !"{{" ++ space ++ name) (x :: r).
Proof.
  intros cfg P space name x r rest H Hs Hn I X a b E.
  destruct (app_app_cases _ _ _ _ E) as [(z & E1 & E2)|(z & E1 & E2)].
  - destruct z as [|c z].
    + cbn [app] in E2. injection E2 as <-. right. right. exists space, name, []. rewrite app_nil_r. repeat (split; auto).
      right. split; eauto.
    + cbn [app] in E2. injection E2 as <- E2. destruct z as [|c z].
      * cbn [app] in E2. injection E2 as <-. left. destruct space as [|c space].
        -- destruct Hn as ((c & n & -> & Hc) & Hn). exists c, n. split; auto. intros ->.
           apply (Hn "{"%char); cbn [In]; auto 10.
        -- cbn [app]. exists c, (space ++ name). split; auto. intros ->.
           apply (proj1 (blank_no_brace _ Hs)). left. auto.
      * injection E2 as <- E2. exfalso. assert (K : In "{"%char (space ++ name)).
        { rewrite E2. apply in_or_app. right. left. auto. }
        apply in_app_or in K as [K|K]; [apply (proj1 (blank_no_brace _ Hs)); auto|apply (proj1 (name_no_brace _ Hn)); auto].
  - destruct z as [|c z].
    + cbn [app] in E2. injection E2 as ->. right. right. exists space, name, []. rewrite app_nil_r. repeat (split; auto).
      right. split; eauto.
    + injection E2 as <- ->. eapply next_ok_weaken. apply (H a z). auto.
Qed.

(** An ignored template is the first occurrence of its text *)
Lemma first_occurrence : forall cfg P space name x T rest, passed cfg P ((!"{{" ++ space ++ name ++ x :: T) ++ rest) ->
  Forall blank_character space -> good_name name -> behind_name x -> is_ignored cfg name = true ->
  index (!"{{" ++ space ++ name ++ x :: T) (P ++ (!"{{" ++ space ++ name ++ x :: T) ++ rest) = Some (length P).
Proof.
  intros cfg P space name x T rest H Hs Hn X I. apply index_first. intros j J.
  set (t := !"{{" ++ space ++ name ++ x :: T) in *.
  destruct (has_prefix t (skipn j (P ++ t ++ rest))) eqn:E; auto. exfalso.
  rewrite skipn_app in E. replace (j - length P) with 0 in E by lia. cbn [skipn] in E.
  pose proof (firstn_skipn j P) as S. set (a := firstn j P) in *. destruct (skipn j P) as [|c b] eqn:Eb.
  { assert (length (skipn j P) = 0) by (rewrite Eb; auto). rewrite skipn_length in H0. lia. }
  apply has_prefix_spec in E as (u & E).
  assert (Et : t = "{"%char :: "{"%char :: space ++ name ++ x :: T) by reflexivity. 
  rewrite Et in E at 2. cbn [app] in E. injection E as -> E.
  symmetry in S. destruct (H a b S) as [(d & b' & -> & D)|[(-> & R)|(space' & name' & b' & -> & Hs' & Hn' & I' & Q)]].
  - injection E as -> _. congruence.
  - rewrite Et in R. discriminate.
  - assert (exists x' v, behind_name x' /\ "{"%char :: space' ++ name' ++ x' :: v = "{"%char :: (space ++ name ++ x :: T) ++ u) as (x' & v & X' & E').
    { destruct Q as [(x' & b2 & -> & X')|(-> & x' & r & E' & X')].
      - exists x', (b2 ++ t ++ rest). split; auto. rewrite <- E. unfold t. cbn [app]. repeat (rewrite <- app_assoc; cbn [app]). reflexivity.
      - exfalso. rewrite Et in E'. injection E' as <- _. unfold behind_name in X'. cbn [In] in X'.
        repeat (destruct X' as [X'|X']); try discriminate; auto. }
    assert (N1 : template_name_at ("{"%char :: "{"%char :: space' ++ name' ++ x' :: v) = Some name').
    { apply (name_at_spec space' name' x' v); auto. }
    assert (N2 : template_name_at ("{"%char :: "{"%char :: (space ++ name ++ x :: T) ++ u) = Some name).
    { rewrite <- !app_assoc. cbn [app]. apply (name_at_spec space name x (T ++ u)); auto. }
    rewrite E' in N1. rewrite N1 in N2. injection N2 as ->. congruence.
Qed.

(** ** The loop *)

Lemma handle_step : forall cfg fuel content i found, (i + 1 <? length content) = true ->
  handleTemplates_go cfg (S fuel) content i found =
  if has_prefix !"{{" (skipn i content) then
    match FindCorrespondingCloseToken content (i + 2) !"{{" !"}}" with
    | None => handleTemplates_go cfg fuel content (S i) found
    | Some e =>
        match template_name (sub content i (e + 2)) with
        | None => handleTemplates_go cfg fuel content (S i) found
        | Some n =>
            if is_ignored cfg n then
              handleTemplates_go cfg fuel (replace_first (sub content i (e + 2)) [] content) i
                (if is_trailing cfg n then found ++ [template_key n] else found)
            else handleTemplates_go cfg fuel content (S i) found
        end
    end
  else handleTemplates_go cfg fuel content (S i) found.
Proof. intros cfg fuel content i found H. cbn [handleTemplates_go]. rewrite H. reflexivity. Qed.

Lemma handle_end : forall cfg fuel content i found, length content <= i + 1 ->
  handleTemplates_go cfg (S fuel) content i found = Ok (content, found).
Proof. intros. cbn [handleTemplates_go]. destruct (Nat.ltb_spec (i + 1) (length content)); auto. lia. Qed.

Lemma handle_char : forall cfg fuel P c s found, (c = "{"%char -> has_prefix !"{" s = false) ->
  handleTemplates_go cfg (S (S fuel)) (P ++ c :: s) (length P) found =
  handleTemplates_go cfg (S fuel) ((P ++ [c]) ++ s) (length (P ++ [c])) found.
Proof.
  intros cfg fuel P c s found H. rewrite <- app_assoc. cbn [app]. rewrite !app_length. cbn [length].
  destruct (Nat.ltb_spec (length P + 1) (length (P ++ c :: s))) as [L|L].
  - rewrite handle_step by (apply Nat.ltb_lt; auto).
    rewrite skipn_app, skipn_all, Nat.sub_diag. cbn [skipn app]. rewrite (no_double_prefix "{"%char c s) by auto.
    rewrite Nat.add_1_r. reflexivity.
  - rewrite !handle_end by lia. auto.
Qed.

Lemma handle_chars : forall cfg a fuel P s found, ~ In "{"%char a ->
  handleTemplates_go cfg (length a + S fuel) (P ++ a ++ s) (length P) found =
  handleTemplates_go cfg (S fuel) ((P ++ a) ++ s) (length (P ++ a)) found.
Proof.
  induction a as [|c a IH]; intros fuel P s found N.
  - cbn [app length plus]. rewrite app_nil_r. auto.
  - cbn [length app]. replace (S (length a) + S fuel) with (S (S (length a + fuel))) by lia.
    rewrite handle_char by (intros ->; exfalso; apply N; left; auto).
    replace (S (length a + fuel)) with (length a + S fuel) by lia. rewrite IH by (intros K; apply N; right; auto).
    rewrite <- !app_assoc. reflexivity.
Qed.

Lemma sub_middle : forall (P T rest : str) e, e = length P + length T -> sub (P ++ T ++ rest) (length P) e = T.
Proof.
  intros P T rest e ->. unfold sub. rewrite skipn_app, skipn_all, Nat.sub_diag. cbn [skipn app].
  replace (length P + length T - length P) with (length T) by lia. rewrite firstn_app, firstn_all, Nat.sub_diag.
  cbn [firstn]. apply app_nil_r.
Qed.

(** The character behind the name *)
Lemma behind : forall arguments k, (arguments = [] \/ exists c a, arguments = Char c :: a /\ (c = "|"%char \/ c = nl_char)) ->
  exists x r, behind_name x /\ templated_texts arguments ++ !"}}" ++ k = x :: r ++ k /\
              templated_texts arguments ++ !"}}" = x :: r.
Proof.
  intros arguments k [->|(c & a & -> & C)].
  - exists "}"%char, !"}". split; [unfold behind_name; cbn [In]; auto|]. auto.
  - exists c, (templated_texts a ++ !"}}"). split.
    + unfold behind_name. cbn [In]. destruct C as [->| ->]; auto.
    + rewrite ttexts_cons. cbn [templated_text app]. rewrite <- app_assoc. auto.
Qed.

Lemma handle_list : forall cfg l k, proper_templates l k -> exists l' f n, without_templates cfg l l' f /\
  n <= length (templated_texts l) /\
  forall P found fuel, passed cfg P (templated_texts l ++ k) ->
    passed cfg (P ++ templated_texts l') k /\
    handleTemplates_go cfg (n + S fuel) (P ++ templated_texts l ++ k) (length P) found =
    handleTemplates_go cfg (S fuel) ((P ++ templated_texts l') ++ k) (length (P ++ templated_texts l')) (found ++ f).
Proof.
  intros cfg. induction 1 as [k|c l k H1 H2 H (l' & f & n & W & Ln & IH)|space name arguments l k Hs Hn1 Hn2 Ha H1 (a' & f1 & n1 & W1 & L1 & IH1) H2 (l' & f2 & n2 & W2 & L2 & IH2)].
  - exists [], [], 0. split; [constructor|]. split; auto. intros P found fuel H. cbn [templated_texts map concat].
    rewrite !app_nil_r. auto.
  - exists (Char c :: l'), f, (S n). split; [apply wt_char; auto|]. split; [rewrite ttexts_cons, app_length; cbn; lia|].
    intros P found fuel H0. rewrite !ttexts_cons. cbn [templated_text]. rewrite (app_assoc P [c] (templated_texts l')).
    change (([c] ++ templated_texts l) ++ k) with (c :: templated_texts l ++ k).
    rewrite ttexts_cons in H0. cbn [templated_text app] in H0.
    destruct (IH (P ++ [c]) found fuel) as [A C]; [apply passed_snoc; auto|]. split; auto.
    replace (S n + S fuel) with (S (S (n + fuel))) by lia. rewrite handle_char by auto.
    replace (S (n + fuel)) with (n + S fuel) by lia. exact C.
  - pose proof (conj Hn1 Hn2 : good_name name) as Hn.
    destruct (is_ignored cfg name) eqn:I.
    + exists l', ((if is_trailing cfg name then [template_key name] else []) ++ f2), (S n2). split; [|split].
      * destruct (is_trailing cfg name) eqn:Tr.
        -- apply wt_trailing; auto. apply is_trailing_spec; auto.
        -- apply wt_ignored; auto; [apply is_ignored_spec; auto|]. intros K. apply is_trailing_spec in K. congruence.
      * rewrite ttexts_cons, app_length. cbn [templated_text]. rewrite !app_length. cbn [length]. lia.
      * intros P found fuel H0. rewrite !ttexts_cons in *. cbn [templated_text] in *.
        change (concat (map templated_text arguments)) with (templated_texts arguments) in *.
        destruct (behind arguments (templated_texts l ++ k) Ha) as (x & r & X & E1 & E2).
        set (T := !"{{" ++ space ++ name ++ x :: r).
        assert (ET : !"{{" ++ space ++ name ++ templated_texts arguments ++ !"}}" = T) by (unfold T; rewrite E2; auto).
        rewrite ET in *. rewrite <- app_assoc in H0. rewrite <- (app_assoc T).
        destruct (IH2 P (found ++ (if is_trailing cfg name then [template_key name] else [])) fuel) as [A C].
        { unfold T in H0. cbn [app] in H0. eapply passed_remove. exact H0. }
        split; auto.
        replace (S n2 + S fuel) with (S (n2 + S fuel)) by lia. rewrite handle_step.
        2:{ apply Nat.ltb_lt. unfold T. rewrite !app_length. cbn [length]. lia. }
        replace (has_prefix !"{{" (skipn (length P) (P ++ T ++ templated_texts l ++ k))) with true.
        2:{ rewrite skipn_app, skipn_all, Nat.sub_diag. reflexivity. }
        pose proof (close_template P space name arguments (templated_texts l ++ k) Hs Hn H1) as CL.
        replace (!"{{" ++ space ++ name ++ templated_texts arguments ++ !"}}" ++ templated_texts l ++ k) with (T ++ templated_texts l ++ k) in CL.
        2:{ rewrite <- ET, <- !app_assoc. reflexivity. }
        rewrite CL. rewrite sub_middle.
        2:{ rewrite <- ET, !app_length. cbn [length]. lia. }
        unfold T at 1. rewrite template_name_spec by auto. rewrite I.
        unfold replace_first. replace (index T (P ++ T ++ templated_texts l ++ k)) with (Some (length P)).
        2:{ symmetry. eapply first_occurrence; eauto. }
        rewrite firstn_app, firstn_all, Nat.sub_diag. cbn [firstn]. rewrite app_nil_r.
        replace (skipn (length P + length T) (P ++ T ++ templated_texts l ++ k)) with (templated_texts l ++ k).
        2:{ rewrite app_assoc, skipn_app, skipn_all2 by (rewrite app_length; lia). rewrite app_length, Nat.sub_diag. reflexivity. }
        cbn [app]. rewrite <- (app_assoc found) in C. rewrite <- C. destruct (is_trailing cfg name); auto. rewrite app_nil_r. auto.
    + exists (Template space name a' :: l'), (f1 ++ f2), (length (!"{{" ++ space ++ name) + n1 + 2 + n2). split; [|split].
      * apply wt_keep; auto. intros K. apply is_ignored_spec in K. congruence.
      * rewrite ttexts_cons, app_length. cbn [templated_text]. change (concat (map templated_text arguments)) with (templated_texts arguments).
        rewrite !app_length. cbn [length]. lia.
      * intros P found fuel H0. rewrite !ttexts_cons in *. cbn [templated_text] in *.
        change (concat (map templated_text arguments)) with (templated_texts arguments) in *.
        change (concat (map templated_text a')) with (templated_texts a') in *.
        destruct (behind arguments (templated_texts l ++ k) Ha) as (x & r & X & E1 & E2).
        rewrite <- !app_assoc in *.
        set (h := !"{{" ++ space ++ name) in *.
        assert (Eh : forall s, !"{{" ++ space ++ name ++ s = h ++ s) by (intros; unfold h; rewrite <- !app_assoc; auto).
        assert (Ph : passed cfg (P ++ h) (templated_texts arguments ++ !"}}" ++ templated_texts l ++ k)).
        { rewrite E1. eapply passed_header; eauto. }
        destruct (IH1 (P ++ h) found (2 + n2 + fuel) Ph) as [A1 C1].
        assert (Pa : passed cfg (((P ++ h) ++ templated_texts a') ++ !"}}") (templated_texts l ++ k)).
        { apply passed_chars; auto. cbn [In]. intros [K|[K|[]]]; discriminate. }
        destruct (IH2 _ (found ++ f1) fuel Pa) as [A2 C2].
        split. { rewrite Eh. rewrite <- !app_assoc in A2. exact A2. }
        (* the opening braces *)
        replace (length h + n1 + 2 + n2 + S fuel) with (S (length (space ++ name) + 1 + (n1 + S (2 + n2 + fuel)))).
        2:{ unfold h. rewrite !app_length. cbn [length]. lia. }
        rewrite handle_step.
        2:{ apply Nat.ltb_lt. rewrite !app_length. cbn [length]. lia. }
        replace (has_prefix !"{{" (skipn (length P) (P ++ !"{{" ++ space ++ name ++ templated_texts arguments ++ !"}}" ++ templated_texts l ++ k))) with true.
        2:{ rewrite skipn_app, skipn_all, Nat.sub_diag. reflexivity. }
        rewrite (close_template P space name arguments (templated_texts l ++ k) Hs Hn H1).
        set (T := !"{{" ++ space ++ name ++ x :: r).
        assert (ET : !"{{" ++ space ++ name ++ templated_texts arguments ++ !"}}" = T) by (unfold T; rewrite E2; auto).
        replace (!"{{" ++ space ++ name ++ templated_texts arguments ++ !"}}" ++ templated_texts l ++ k) with (T ++ templated_texts l ++ k).
        2:{ rewrite <- ET, <- !app_assoc. reflexivity. }
        rewrite sub_middle.
        2:{ rewrite <- ET, !app_length. cbn [length]. lia. }
        unfold T at 1. rewrite template_name_spec by auto. rewrite I.
        replace (T ++ templated_texts l ++ k) with (!"{" ++ !"{" ++ (space ++ name) ++ templated_texts arguments ++ !"}}" ++ templated_texts l ++ k).
        2:{ rewrite <- ET, <- !app_assoc. reflexivity. }
        replace (S (length P)) with (length (P ++ !"{")) by (rewrite app_length; cbn [length]; lia).
        rewrite (app_assoc P). set (rest := templated_texts arguments ++ !"}}" ++ templated_texts l ++ k) in *.
        change (!"{" ++ (space ++ name) ++ rest) with ("{"%char :: (space ++ name) ++ rest).
        replace (length (space ++ name) + 1 + (n1 + S (2 + n2 + fuel))) with (S (S (length (space ++ name) + (n1 + (2 + n2 + fuel))))) by lia.
        rewrite handle_char.
        2:{ intros _. destruct space as [|c space].
            - destruct Hn1 as (c & nm & -> & _). cbn [app has_prefix]. rewrite andb_true_r.
              destruct (Ascii.eqb_spec "{"%char c); auto. subst. exfalso. apply (Hn2 "{"%char); cbn [In]; auto 10.
            - cbn [app has_prefix]. rewrite andb_true_r.
              destruct (Ascii.eqb_spec "{"%char c); auto. subst. exfalso. apply (proj1 (blank_no_brace _ Hs)). left. auto. }
        replace (S (length (space ++ name) + (n1 + (2 + n2 + fuel)))) with (length (space ++ name) + S (n1 + (2 + n2 + fuel))) by lia.
        rewrite handle_chars.
        2:{ intros K. apply in_app_or in K as [K|K]; [apply (proj1 (blank_no_brace _ Hs)); auto|apply (proj1 (name_no_brace _ Hn)); auto]. }
        replace (((P ++ !"{") ++ !"{") ++ space ++ name) with (P ++ h) by (unfold h; rewrite <- !app_assoc; reflexivity).
        replace (S (n1 + (2 + n2 + fuel))) with (n1 + S (2 + n2 + fuel)) by lia. rewrite C1.
        replace (S (2 + n2 + fuel)) with (length !"}}" + S (n2 + fuel)) by (cbn [length]; lia).
        rewrite handle_chars.
        2:{ cbn [In]. intros [K|[K|[]]]; discriminate. }
        replace (S (n2 + fuel)) with (n2 + S fuel) by lia. rewrite C2. rewrite !Eh. rewrite <- !app_assoc. reflexivity.
Qed.

Theorem handleTemplates_spec : forall cfg l, proper_templates l [] -> exists l' f, without_templates cfg l l' f /\
  handleUnwantedAndTrailingTemplates cfg (templated_texts l) =
  Ok (templated_texts l' ++ concat (map (fun t => nl ++ !"{{" ++ t ++ !"}}") f)).
Proof.
  intros cfg l H. destruct (handle_list cfg l [] H) as (l' & f & n & W & L & E). exists l', f. split; auto.
  unfold handleUnwantedAndTrailingTemplates.
  destruct (E [] [] (length (templated_texts l) - n)) as [_ E1].
  { intros a b K. destruct a; discriminate. }
  rewrite !app_nil_r in E1. cbn [app length] in E1.
  replace (n + S (length (templated_texts l) - n)) with (S (length (templated_texts l))) in E1 by lia.
  rewrite E1, handle_end by lia. reflexivity.
Qed.

Lemma without_templates_det : forall cfg l r1 f1, without_templates cfg l r1 f1 -> forall r2 f2, without_templates cfg l r2 f2 -> r1 = r2 /\ f1 = f2.
Proof.
  induction 1 as [|c l r f H IH|space name arguments l r f T H IH|space name arguments l r f I T H IH|space name arguments a l r f1 f2 I H1 IH1 H2 IH2];
    intros r2 g W; inversion W; subst; auto;
    try (exfalso; match goal with X : ~ ignored_template _ _ |- _ => apply X end; auto using trailing_ignored; fail); try contradiction.
  - match goal with X : without_templates _ l _ _ |- _ => destruct (IH _ _ X) as [-> ->] end. auto.
  - match goal with X : without_templates _ l _ _ |- _ => destruct (IH _ _ X) as [-> ->] end. auto.
  - match goal with X : without_templates _ arguments _ _ |- _ => destruct (IH1 _ _ X) as [-> ->] end.
    match goal with X : without_templates _ l _ _ |- _ => destruct (IH2 _ _ X) as [-> ->] end. auto.
Qed.

(** Always an answer: every round moves on or shortens the content *)
Lemma handle_total : forall cfg fuel content i found, length content - i < fuel ->
  exists r, handleTemplates_go cfg fuel content i found = Ok r.
Proof.
  induction fuel as [|fuel IH]; intros content i found L; [lia|].
  destruct (Nat.ltb_spec (i + 1) (length content)) as [K|K].
  - rewrite handle_step by (apply Nat.ltb_lt; auto).
    assert (N : exists r, handleTemplates_go cfg fuel content (S i) found = Ok r) by (apply IH; lia).
    destruct (has_prefix !"{{" (skipn i content)); auto.
    destruct (FindCorrespondingCloseToken content (i + 2) !"{{" !"}}") as [e|] eqn:F; auto.
    destruct (template_name _) as [nm|]; auto. destruct (is_ignored cfg nm); auto.
    apply findClose_position in F as (A & C & _); try discriminate. cbn [length] in C.
    apply IH. set (t := sub content i (e + 2)).
    assert (Lt : length t = e + 2 - i). { unfold t, sub. rewrite firstn_length, skipn_length. lia. }
    unfold replace_first. destruct (index t content) as [j|] eqn:J.
    + apply index_some in J as (_ & J & _). rewrite !app_length, firstn_length, skipn_length. cbn [length]. lia.
    + exfalso. rewrite index_none in J. apply (J (firstn i content) (skipn (e + 2 - i) (skipn i content))).
      unfold t, sub. rewrite firstn_skipn, firstn_skipn. auto.
  - rewrite handle_end by lia. eauto.
Qed.

Theorem handleTemplates_total : forall cfg content, exists r, handleUnwantedAndTrailingTemplates cfg content = Ok r.
Proof.
  intros. unfold handleUnwantedAndTrailingTemplates. destruct (handle_total cfg (S (length content)) content 0 []) as ([c f] & E); [lia|].
  rewrite E. cbn. eauto.
Qed.

(** ** Railway templates *)

(** The fuel is enough: the recursive call and the next round are closer to the end *)
Lemma hack_fuel : forall fuel content i, length content - i < fuel ->
  hackGermanRailwayTemplates fuel content i = Err \/
  exists r, hackGermanRailwayTemplates fuel content i = Ok r /\ length r <= length content.
Proof.
  induction fuel as [|fuel IH]; intros content i L; [lia|]. cbn [hackGermanRailwayTemplates].
  destruct (Nat.ltb_spec (i + length bs_start) (length content)) as [K|K]; [|eauto].
  change (length bs_start) with 12 in *.
  destruct (has_prefix bs_start (skipn i content)).
  - destruct (IH content (i + 12)) as [E|(r & E & Lr)]; [lia|rewrite E; auto|]. rewrite E. cbn [bind].
    destruct (FindCorrespondingCloseToken r (i + 12) bs_start !"|}") as [e|] eqn:F; auto.
    apply findClose_position in F as (A & C & _); try discriminate. cbn [length] in C.
    set (c1 := firstn e r ++ skipn (e + 2) r).
    assert (L1 : length c1 + 2 = length r). { unfold c1. rewrite app_length, firstn_length, skipn_length. lia. }
    set (c2 := firstn i c1 ++ skipn (i + 12) c1).
    assert (L2 : length c2 <= length c1). { unfold c2. rewrite app_length, firstn_length, skipn_length. lia. }
    destruct (IH c2 (S i)) as [E2|(r2 & E2 & Lr2)]; [lia|rewrite E2; auto|]. right. exists r2. split; auto. lia.
  - destruct (IH content (S i)) as [E|(r & E & Lr)]; [lia|rewrite E; auto|]. rewrite E. eauto.
Qed.

(** Without a railway table nothing happens *)
Lemma hack_none : forall fuel content i, length content - i < fuel -> contains bs_start content = false ->
  hackGermanRailwayTemplates fuel content i = Ok content.
Proof.
  induction fuel as [|fuel IH]; intros content i L C; [lia|]. cbn [hackGermanRailwayTemplates].
  destruct (Nat.ltb_spec (i + length bs_start) (length content)) as [K|K]; auto.
  destruct (has_prefix bs_start (skipn i content)) eqn:P.
  - exfalso. apply has_prefix_spec in P as (t & E). rewrite contains_false in C. apply (C (firstn i content) t).
    rewrite <- E. symmetry. apply firstn_skipn.
  - apply IH; auto. lia.
Qed.

(** ** All steps *)

(** Cleaning returns a text or an error unless a link is not closed *)
Lemma links_closed_ok : forall cfg s k,
  (forall a b, s = a ++ !"[[" ++ b -> b <> [] -> exists e, closes b 0 !"[" !"]" e /\ e + 2 <= length b) ->
  exists r, removeLinks_go cfg s k = Ok r.
Proof.
  intros cfg. induction s as [|c s IH]; intros k H; [exists []; destruct k; reflexivity|].
  assert (IH' : forall k, exists r, removeLinks_go cfg s k = Ok r).
  { intros k'. apply IH. intros a b ->. apply (H (c :: a)). auto. }
  destruct k as [|k]; [|apply IH'].
  assert (T : exists r, (let! r := removeLinks_go cfg s 0 in Ok (c :: r)) = Ok r).
  { destruct (IH' 0) as (r & ->). cbn. eauto. }
  unfold removeLinks_go; fold removeLinks_go.
  destruct (Nat.leb_spec (length (c :: s)) 2) as [L|L]; [eauto|].
  destruct (has_prefix !"[[" (c :: s)) eqn:P; auto. apply has_prefix_spec in P as (b & E).
  destruct (H [] b) as (e & C & Le); auto. { intros ->. rewrite E in L. cbn in L. lia. }
  assert (F : FindCorrespondingCloseToken (c :: s) 2 !"[" !"]" = Some (2 + e)).
  { apply findClose_spec; try discriminate; [lia|]. rewrite E. destruct C as (_ & x & y & R & B & ->).
    split; [rewrite app_length; cbn; lia|]. exists x, y. auto. }
  rewrite F. destruct (link_unwanted _ _ _); auto.
  assert (Lc : length (c :: s) = 2 + length b) by (rewrite E; reflexivity). rewrite Lc.
  destruct (Nat.leb_spec (2 + e + 2) (2 + length b)) as [K|K]; [apply IH'|lia].
Qed.

Theorem clean_total : forall cfg content,
  (forall a b, removeComments content = a ++ !"[[" ++ b -> b <> [] -> exists e, closes b 0 !"[" !"]" e /\ e + 2 <= length b) ->
  (exists r, clean cfg content = Ok r) \/ clean cfg content = Err.
Proof.
  intros cfg content H. unfold clean. destruct (links_closed_ok cfg _ 0 H) as (c & E).
  unfold removeUnwantedInternalLinks. rewrite E.
  cbn [bind]. destruct (handleTemplates_total cfg c) as (r & ->). cbn [bind].
  set (x := removeEmptySections _).
  destruct (hack_fuel (S (length x)) x 0) as [F|(y & F & _)]; [lia|rewrite F; auto|rewrite F; eauto].
Qed.
