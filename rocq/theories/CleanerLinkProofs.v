(** * Removing unwanted internal links *)

From Coq Require Import Ascii String.
From Coq Require Import List Arith Bool Lia.
From Verif Require Import GoStr GoStrFacts TextFacts UtilModel BracketModel BracketSpec BracketProofs ConfigModel CleanerModel CleanerSpec.
Import ListNotations.
Local Open Scope list_scope.

(** ** The decision for one link *)

Lemma in_colon_dec : forall t : str, {In ":"%char t} + {~ In ":"%char t}.
Proof. intros. apply in_dec, ascii_dec. Qed.

Lemma first_colon : forall t : str, In ":"%char t -> exists p b, t = p ++ !":" ++ b /\ ~ In ":"%char p.
Proof.
  induction t as [|c t IH]; intros I; [destruct I|].
  destruct (ascii_dec c ":"%char) as [->|N].
  - exists [], t. split; auto.
  - destruct I as [->|I]; [congruence|]. destruct (IH I) as (p & b & -> & H). exists (c :: p), b. split; auto.
    intros [->|K]; auto.
Qed.

Lemma prefixes_cons : forall p b, ~ In ":"%char p ->
  removelast (split !":" (p ++ !":" ++ b)) = p :: removelast (split !":" b).
Proof.
  intros p b H. change (!":" ++ b) with (":"%char :: b). rewrite split_single_app by auto.
  cbn [removelast]. destruct (split !":" b) eqn:E; auto. destruct (split_nonempty !":" b E).
Qed.

Lemma prefixes_none : forall t, ~ In ":"%char t -> removelast (split !":" t) = [].
Proof. intros. rewrite split_single_none; auto. Qed.

Lemma prefix_of_cons : forall p q b, ~ In ":"%char p -> (prefix_of q (p ++ !":" ++ b) <-> q = p \/ prefix_of q b).
Proof.
  intros p q b Hp. split.
  - intros (Hq & a & b' & E & A). destruct A as [->|(a' & ->)].
    + left. cbn [app] in E. destruct (app_app_cases _ _ _ _ E) as [(z & E1 & E2)|(z & E1 & E2)].
      * destruct z as [|z0 z]; [rewrite app_nil_r in E1; auto|]. injection E2 as <- E2. subst.
        exfalso. apply Hq. apply in_or_app. right. left. auto.
      * destruct z as [|z0 z]; [rewrite app_nil_r in E1; auto|]. injection E2 as <- E2. subst.
        exfalso. apply Hp. apply in_or_app. right. left. auto.
    + right. split; auto. rewrite <- app_assoc in E. destruct (app_app_cases _ _ _ _ E) as [(z & E1 & E2)|(z & E1 & E2)].
      * destruct z as [|z0 z].
        -- cbn [app] in E2. injection E2 as E2. subst b. exists [], b'. auto.
        -- injection E2 as <- E2. subst. exists (z ++ !":"), b'. split; [rewrite <- app_assoc; auto|]. right. eauto.
      * destruct z as [|z0 z].
        -- cbn [app] in E2. injection E2 as E2. subst b. exists [], b'. auto.
        -- injection E2 as <- E2. subst. exfalso. apply Hp. apply in_or_app. right. left. auto.
  - intros [->|(Hq & a & b' & -> & A)].
    + split; auto. exists [], b. auto.
    + split; auto. exists (p ++ !":" ++ a), b'. split; [rewrite <- !app_assoc; auto|]. right.
      destruct A as [->|(a' & ->)]; [exists p; auto|]. exists (p ++ !":" ++ a'). rewrite <- !app_assoc. auto.
Qed.

Lemma prefixes_spec : forall t q, In q (removelast (split !":" t)) <-> prefix_of q t.
Proof.
  intros t. remember (length t) as n eqn:En. assert (L : length t <= n) by lia. clear En. revert t L.
  induction n as [|n IH]; intros t L q.
  - destruct t; [|cbn in L; lia]. split; [intros []|]. intros (_ & a & b & E & _). destruct a; [destruct q|]; discriminate.
  - destruct (in_colon_dec t) as [I|I].
    + destruct (first_colon t I) as (p & b & -> & Hp). rewrite prefixes_cons, prefix_of_cons by auto. cbn [In].
      rewrite IH; [intuition congruence|]. rewrite !app_length in L. cbn in L. lia.
    + rewrite prefixes_none by auto. split; [intros []|]. intros (_ & a & b & -> & _). apply I.
      apply in_or_app. right. apply in_or_app. right. left. auto.
Qed.

Lemma to_lower_nil : forall p : str, to_lower p = [] <-> p = [].
Proof. intros [|c p]; split; auto; discriminate. Qed.

Lemma forbidden_spec : forall cfg p, forbidden_prefix cfg (to_lower p) = true <-> forbidden cfg p.
Proof.
  intros cfg p. unfold forbidden_prefix, forbidden. rewrite andb_true_iff, negb_true_iff, orb_true_iff, andb_true_iff, !negb_true_iff.
  rewrite <- !not_true_iff_false, !mem_str_In, str_eqb_eq, to_lower_nil. tauto.
Qed.

Lemma link_unwanted_spec : forall cfg t rest, link_unwanted cfg t (nth 0 (t ++ rest) zero) = true <-> unwanted cfg t.
Proof.
  intros cfg t rest. unfold link_unwanted, unwanted. destruct (in_colon_dec t) as [I|I].
  - destruct (first_colon t I) as (p & b & E & Hp). rewrite E at 1. rewrite prefixes_cons by auto.
    assert (X : forall q, In q (p :: removelast (split !":" b)) <-> prefix_of q t).
    { intros q. rewrite E, prefix_of_cons by auto. cbn [In]. rewrite prefixes_spec. intuition congruence. }
    destruct (mem_str (to_lower p) (lists cfg FilePrefixes)) eqn:F.
    { apply mem_str_In in F. split; [discriminate|]. intros (_ & _ & K). exfalso. apply (K p); auto.
      split; auto. eauto. }
    assert (F' : forall q, first_prefix_of q t -> ~ In (to_lower q) (lists cfg FilePrefixes)).
    { intros q (Hq & b' & Eq). rewrite <- mem_str_In. rewrite E in Eq.
      assert (q = p) as ->; [|congruence]. assert (P : prefix_of q (p ++ !":" ++ b)).
      { split; auto. exists [], b'. auto. }
      destruct (app_app_cases _ _ _ _ Eq) as [(z & E1 & E2)|(z & E1 & E2)].
      - destruct z as [|z0 z]; [rewrite app_nil_r in E1; auto|]. injection E2 as <- E2. subst.
        exfalso. apply Hq. apply in_or_app. right. left. auto.
      - destruct z as [|z0 z]; [rewrite app_nil_r in E1; auto|]. injection E2 as <- E2. subst.
        exfalso. apply Hp. apply in_or_app. right. left. auto. }
    destruct t as [|c t]; [destruct I|]. cbn [app nth].
    destruct (Ascii.eqb_spec c ":"%char) as [->|N].
    { split; [discriminate|]. intros (_ & K & _). exfalso. apply (K t). auto. }
    rewrite existsb_exists. split.
    + intros (q & Iq & Fq). split; [exists q; rewrite <- prefixes_spec; split; [exact Iq|apply forbidden_spec; auto]|]. split; auto.
      intros t' [= -> ->]. auto.
    + intros ((q & Pq & Fq) & _ & _). exists q. split; [apply prefixes_spec; auto|]. apply forbidden_spec; auto.
  - rewrite prefixes_none by auto. split; [discriminate|]. intros ((q & Pq & _) & _). exfalso.
    apply prefixes_spec in Pq. rewrite prefixes_none in Pq by auto. destruct Pq.
Qed.

(** ** The text *)

Lemma texts_cons : forall e l, bracketed_texts (e :: l) = bracketed_text e ++ bracketed_texts l.
Proof. reflexivity. Qed.

(** Characters of a proper text are read as balanced brackets *)
Fixpoint bracket_items (e : bracketed) : list item :=
  match e with
  | Plain c => [Other c]
  | Single body => Opening :: concat (map bracket_items body) ++ [Closing]
  | Link body => Opening :: Opening :: concat (map bracket_items body) ++ [Closing; Closing]
  end.
Definition bracket_itemss (l : list bracketed) : list item := concat (map bracket_items l).

Lemma read_plain : forall c s l, c <> "["%char -> c <> "]"%char -> reading !"[" !"]" s l -> reading !"[" !"]" (c :: s) (Other c :: l).
Proof.
  intros c s l H1 H2 R. apply read_other; auto; cbn [has_prefix]; rewrite andb_true_r.
  - destruct (Ascii.eqb_spec "["%char c); congruence.
  - destruct (Ascii.eqb_spec "]"%char c); congruence.
Qed.
Lemma read_opening : forall s l, reading !"[" !"]" s l -> reading !"[" !"]" ("["%char :: s) (Opening :: l).
Proof. intros s l R. apply (read_open !"[" !"]" s l); auto. discriminate. Qed.
Lemma read_closing : forall s l, reading !"[" !"]" s l -> reading !"[" !"]" ("]"%char :: s) (Closing :: l).
Proof. intros s l R. apply (read_close !"[" !"]" s l); auto. Qed.

Lemma proper_reading : forall l, proper_brackets l -> forall s r, reading !"[" !"]" s r ->
  reading !"[" !"]" (bracketed_texts l ++ s) (bracket_itemss l ++ r).
Proof.
  induction 1 as [|c l H1 H2 H IH|body l N H1 IH1 H2 IH2|body l N H1 IH1 H2 IH2]; intros s r R; auto.
  - rewrite texts_cons. unfold bracket_itemss. cbn [bracketed_text bracket_items map concat app]. apply read_plain; auto.
  - rewrite texts_cons. unfold bracket_itemss. cbn [bracketed_text bracket_items map concat]. cbn [app]. rewrite <- !app_assoc.
    apply read_opening. apply IH1. cbn [app]. apply read_closing. apply IH2; auto.
  - rewrite texts_cons. unfold bracket_itemss. cbn [bracketed_text bracket_items map concat]. cbn [app]. rewrite <- !app_assoc.
    apply read_opening, read_opening. apply IH1. cbn [app]. apply read_closing, read_closing. apply IH2; auto.
Qed.

Lemma proper_balanced : forall l, proper_brackets l -> balanced (bracket_itemss l).
Proof.
  induction 1 as [|c l H1 H2 H IH|body l N H1 IH1 H2 IH2|body l N H1 IH1 H2 IH2].
  - constructor.
  - apply balanced_other; auto.
  - unfold bracket_itemss. cbn [bracket_items map concat app]. rewrite <- app_assoc. cbn [app]. apply balanced_pair; auto.
  - unfold bracket_itemss. cbn [bracket_items map concat app]. rewrite <- app_assoc. cbn [app].
    change (Opening :: Opening :: concat (map bracket_items body) ++ Closing :: Closing :: concat (map bracket_items l))
      with (Opening :: (Opening :: bracket_itemss body) ++ Closing :: [] ++ Closing :: bracket_itemss l).
    replace (Opening :: (Opening :: bracket_itemss body) ++ Closing :: [] ++ Closing :: bracket_itemss l)
      with (Opening :: (Opening :: bracket_itemss body ++ Closing :: []) ++ Closing :: bracket_itemss l).
    + apply balanced_pair; auto. apply balanced_pair; auto. apply balanced_empty.
    + cbn [app]. rewrite <- app_assoc. reflexivity.
Qed.

Lemma items_length : forall l, proper_brackets l -> items_text !"[" !"]" (bracket_itemss l) = bracketed_texts l.
Proof.
  intros l H. pose proof (proper_reading l H [] [] (read_end _ _)) as R. rewrite !app_nil_r in R.
  symmetry. eapply reading_text; eauto.
Qed.

(** The end of a link *)
Lemma close_link : forall body s, proper_brackets body ->
  FindCorrespondingCloseToken (!"[[" ++ bracketed_texts body ++ !"]]" ++ s) 2 !"[" !"]" = Some (2 + length (bracketed_texts body)).
Proof.
  intros body s H. apply findClose_spec; try discriminate.
  - rewrite app_length. cbn. lia.
  - split; [rewrite app_length; cbn; lia|].
    destruct (reading_total !"[" !"]" s) as (r & R); try discriminate.
    exists (bracket_itemss body), (Closing :: r). split; [|split; [apply proper_balanced; auto|rewrite items_length; auto]].
    cbn [app skipn]. apply proper_reading; auto. apply read_closing, read_closing. auto.
Qed.

(** ** The loop *)

Lemma removeLinks_short : forall cfg s, length s <= 2 -> removeLinks_go cfg s 0 = Ok s.
Proof.
  intros cfg [|a s] L; auto. unfold removeLinks_go; fold removeLinks_go.
  destruct (Nat.leb_spec (length (a :: s)) 2); auto. lia.
Qed.

Lemma removeLinks_cons : forall cfg c s, removeLinks_go cfg (c :: s) 0 =
  if (length (c :: s) <=? 2) then Ok (c :: s)
  else if has_prefix !"[[" (c :: s) then
    match FindCorrespondingCloseToken (c :: s) 2 !"[" !"]" with
    | None => Panic
    | Some endIndex =>
        if link_unwanted cfg (sub (c :: s) 2 endIndex) (nth 2 (c :: s) zero) then
          if (endIndex + 2 <=? length (c :: s)) then removeLinks_go cfg s (endIndex + 1) else Panic
        else let! r := removeLinks_go cfg s 0 in Ok (c :: r)
    end
  else let! r := removeLinks_go cfg s 0 in Ok (c :: r).
Proof. reflexivity. Qed.

Lemma removeLinks_char : forall cfg c s, has_prefix !"[[" (c :: s) = false ->
  removeLinks_go cfg (c :: s) 0 = let! r := removeLinks_go cfg s 0 in Ok (c :: r).
Proof.
  intros cfg c s H. rewrite removeLinks_cons, H. destruct (Nat.leb_spec (length (c :: s)) 2) as [L|L]; auto.
  rewrite removeLinks_short; auto. cbn in L. lia.
Qed.

Lemma removeLinks_skip : forall cfg a s, removeLinks_go cfg (a ++ s) (length a) = removeLinks_go cfg s 0.
Proof. induction a as [|c a IH]; intros s; auto. cbn [app length]. apply IH. Qed.

Lemma not_double : forall c s, c <> "["%char -> has_prefix !"[[" (c :: s) = false.
Proof. intros c s H. cbn [has_prefix]. destruct (Ascii.eqb_spec "["%char c); [congruence|reflexivity]. Qed.

Lemma not_double_second : forall c s, has_prefix !"[" s = false -> has_prefix !"[[" (c :: s) = false.
Proof.
  intros c [|d s] H; cbn [has_prefix] in *; [apply andb_false_r|]. rewrite andb_true_r in H. rewrite H. apply andb_false_r.
Qed.

Lemma first_no_bracket : forall body s, proper_brackets body -> not_bracket_first body -> has_prefix !"[" s = false ->
  has_prefix !"[" (bracketed_texts body ++ s) = false.
Proof.
  intros body s H N S. destruct H as [|c l H1 H2 H|body l N1 H1 H2|body l N1 H1 H2]; auto.
  - rewrite texts_cons. cbn [bracketed_text app has_prefix]. rewrite andb_true_r.
    destruct (Ascii.eqb_spec "["%char c); congruence.
  - destruct (N _ _ eq_refl); discriminate.
  - destruct (N _ _ eq_refl); discriminate.
Qed.

Lemma bind_ok : forall A C (x : res A) (f : A -> res C), bind x f = match x with Ok a => f a | Err => Err | Panic => Panic | OutOfFuel => OutOfFuel end.
Proof. reflexivity. Qed.

Lemma removeLinks_list : forall cfg l, proper_brackets l -> exists l', without_unwanted cfg l l' /\
  forall s, removeLinks_go cfg (bracketed_texts l ++ s) 0 = let! r := removeLinks_go cfg s 0 in Ok (bracketed_texts l' ++ r).
Proof.
  intros cfg. induction 1 as [|c l H1 H2 H (l' & W & IH)|body l N H1 (b' & W1 & IH1) H2 (l' & W2 & IH2)|body l N H1 (b' & W1 & IH1) H2 (l' & W2 & IH2)].
  - exists []. split; [constructor|]. intros s. cbn [bracketed_texts map concat app]. destruct (removeLinks_go cfg s 0); reflexivity.
  - exists (Plain c :: l'). split; [apply wu_plain; auto|]. intros s. rewrite !texts_cons. cbn [bracketed_text app].
    rewrite removeLinks_char by (apply not_double; auto). rewrite IH. destruct (removeLinks_go cfg s 0); reflexivity.
  - exists (Single b' :: l'). split; [apply wu_single; auto|]. intros s. rewrite !texts_cons. cbn [bracketed_text app].
    change (concat (map bracketed_text body)) with (bracketed_texts body). change (concat (map bracketed_text b')) with (bracketed_texts b').
    rewrite <- !app_assoc. rewrite removeLinks_char by (apply not_double_second, first_no_bracket; auto).
    rewrite IH1. cbn [app]. rewrite removeLinks_char by (apply not_double; discriminate).
    rewrite IH2. destruct (removeLinks_go cfg s 0); try reflexivity.
    cbn [bind app]. rewrite <- !app_assoc. reflexivity.
  - set (U := link_unwanted cfg (bracketed_texts body) (nth 0 (bracketed_texts body ++ !"]]") zero)).
    assert (X : forall s, removeLinks_go cfg (bracketed_texts (Link body :: l) ++ s) 0 =
      if U then removeLinks_go cfg (bracketed_texts l ++ s) 0
      else let! r := removeLinks_go cfg (!"[" ++ bracketed_texts body ++ !"]]" ++ bracketed_texts l ++ s) 0 in Ok ("["%char :: r)).
    { intros s. rewrite !texts_cons. cbn [bracketed_text].
      change (concat (map bracketed_text body)) with (bracketed_texts body). rewrite <- !app_assoc.
      pose proof (close_link body (bracketed_texts l ++ s) H1) as C. set (t := bracketed_texts body) in *.
      set (rest := bracketed_texts l ++ s) in *. cbn [app] in *. rewrite removeLinks_cons, C.
      destruct (Nat.leb_spec (length ("["%char :: "["%char :: t ++ "]"%char :: "]"%char :: rest)) 2) as [L|L].
      { cbn in L. rewrite app_length in L. cbn in L. lia. }
      change (has_prefix !"[[" ("["%char :: "["%char :: t ++ "]"%char :: "]"%char :: rest)) with true. cbn iota.
      assert (E1 : sub ("["%char :: "["%char :: t ++ "]"%char :: "]"%char :: rest) 2 (2 + length t) = t).
      { unfold sub. cbn [skipn]. replace (2 + length t - 2) with (length t) by lia.
        rewrite firstn_app, Nat.sub_diag, firstn_all. cbn [firstn]. apply app_nil_r. }
      assert (E2 : nth 2 ("["%char :: "["%char :: t ++ "]"%char :: "]"%char :: rest) zero = nth 0 (t ++ !"]]") zero).
      { cbn [nth]. destruct t; reflexivity. }
      rewrite E1, E2. fold U. destruct U; auto.
      destruct (Nat.leb_spec (2 + length t + 2) (length ("["%char :: "["%char :: t ++ "]"%char :: "]"%char :: rest))) as [K|K].
      - change ("["%char :: t ++ "]"%char :: "]"%char :: rest) with (!"[" ++ t ++ !"]]" ++ rest).
        rewrite !app_assoc. rewrite <- removeLinks_skip with (a := (!"[" ++ t) ++ !"]]").
        f_equal. rewrite !app_length. cbn [length]. lia.
      - cbn [length] in K. rewrite app_length in K. cbn [length] in K. lia. }
    pose proof (link_unwanted_spec cfg (bracketed_texts body) !"]]") as S. fold U in S.
    destruct U.
    + exists l'. split; [apply wu_drop; auto; apply S; auto|]. intros s. rewrite X. apply IH2.
    + exists (Link b' :: l'). split; [apply wu_keep; auto; intros K; apply S in K; discriminate|]. intros s. rewrite X.
      cbn [app]. rewrite removeLinks_char.
      * rewrite IH1. cbn [app]. rewrite removeLinks_char by (apply not_double; discriminate).
        rewrite removeLinks_char by (apply not_double; discriminate). rewrite IH2.
        destruct (removeLinks_go cfg s 0); try reflexivity. cbn [bind]. rewrite texts_cons. cbn [bracketed_text app].
        change (concat (map bracketed_text b')) with (bracketed_texts b'). rewrite <- !app_assoc. reflexivity.
      * apply not_double_second, first_no_bracket; auto.
Qed.

Theorem removeUnwantedInternalLinks_spec : forall cfg l, proper_brackets l -> exists l', without_unwanted cfg l l' /\
  removeUnwantedInternalLinks cfg (bracketed_texts l) = Ok (bracketed_texts l').
Proof.
  intros cfg l H. destruct (removeLinks_list cfg l H) as (l' & W & E). exists l'. split; auto.
  specialize (E []). rewrite !app_nil_r in E. unfold removeUnwantedInternalLinks. rewrite E. cbn. rewrite app_nil_r. auto.
Qed.

Lemma without_unwanted_det : forall cfg l r1, without_unwanted cfg l r1 -> forall r2, without_unwanted cfg l r2 -> r1 = r2.
Proof.
  induction 1; intros r2 W; inversion W; subst; auto; try contradiction; f_equal; auto. f_equal; auto. f_equal; auto.
Qed.

(** Without any double opening bracket nothing happens *)
Theorem removeUnwantedInternalLinks_none : forall cfg s, contains !"[[" s = false -> removeUnwantedInternalLinks cfg s = Ok s.
Proof.
  intros cfg. unfold removeUnwantedInternalLinks. induction s as [|c s IH]; intros H; auto.
  rewrite contains_false in H. rewrite removeLinks_char.
  - rewrite IH; auto. apply contains_false. intros a b ->. apply (H (c :: a) b). auto.
  - destruct (has_prefix !"[[" (c :: s)) eqn:P; auto. apply has_prefix_spec in P as (t & E). exfalso. apply (H [] t). auto.
Qed.
