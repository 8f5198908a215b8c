(** * Proofs about images *)

From Coq Require Import Ascii String.
From Coq Require Import List Arith ZArith Bool Lia.
From Verif Require Import GoStr GoStrFacts TextFacts TrimFacts UtilModel ConfigModel BracketModel TokenModel ImageModel.
From Verif Require Import BracketSpec BracketProofs CleanerLinkProofs TokenSpec TokenProofs PassSpec PassProofs BlockPassProofs HeadingProofs LinkProofs ImageFileProofs ShapeProofs PictureSpec.
Import ListNotations.
Local Open Scope list_scope.

(** ** The brackets *)

Lemma bracketed_items : forall s, bracketed s -> exists l, balanced l /\ items_text !"[" !"]" l = s /\
  forall r l', reading !"[" !"]" r l' -> reading !"[" !"]" (s ++ r) (l ++ l').
Proof.
  induction 1 as [|c s N1 N2 H (l & B & T & R)|a b Ha (la & Ba & Ta & Ra) Hb (lb & Bb & Tb & Rb)].
  - exists []. split; [constructor|]. split; auto.
  - exists (Other c :: l). split; [apply balanced_other; auto|]. split; [unfold items_text in *; cbn [map concat item_text app]; rewrite T; auto|].
    intros r l' H'. cbn [app]. apply read_plain; auto.
  - exists (Opening :: la ++ Closing :: lb). split; [apply balanced_pair; auto|]. split.
    + unfold items_text in *. cbn [map concat item_text]. rewrite map_app, concat_app. cbn [map concat item_text]. rewrite Ta, Tb. auto.
    + intros r l' H'. cbn [app]. rewrite <- !app_assoc. cbn [app]. apply read_opening. apply Ra. apply read_closing. apply Rb. auto.
Qed.

Lemma close_picture : forall before body after, bracketed body ->
  FindCorrespondingCloseToken (before ++ body ++ !"]]" ++ after) (length before) !"[" !"]" = Some (length before + length body).
Proof.
  intros before body after H. destruct (bracketed_items body H) as (l & B & T & R).
  apply findClose_spec; try discriminate.
  - rewrite app_length. lia.
  - split; [rewrite app_length; lia|]. destruct (reading_total !"[" !"]" after) as (r & Rr); try discriminate.
    exists l, (Closing :: r). split; [|split; [auto|rewrite T; auto]].
    rewrite skipn_app, skipn_all, Nat.sub_diag. cbn [app skipn]. apply R. apply read_closing, read_closing. auto.
Qed.

Lemma prefix_end_at : forall p s, ~ In ":"%char p -> ~ In "]"%char p -> prefix_end (p ++ ":"%char :: s) = Some (length p).
Proof.
  induction p as [|c p IH]; intros s N1 N2; [reflexivity|]. cbn [app prefix_end length].
  rewrite (proj2 (Ascii.eqb_neq c ":")), (proj2 (Ascii.eqb_neq c "]")); [|intros ->; apply N2; left; auto|intros ->; apply N1; left; auto].
  rewrite IH; auto; [intros I; apply N1; right; auto|intros I; apply N2; right; auto].
Qed.

Lemma no_link_tail : forall c s, no_link (c :: s) -> no_link s.
Proof.
  intros c s [C E]. split.
  - apply (contains_app_false _ [c] s C).
  - intros (x & ->). apply E. exists (c :: x). auto.
Qed.

Lemma start_found : forall first p r, no_link first -> p <> [] -> ~ In ":"%char p -> ~ In "]"%char p ->
  find_link_start (first ++ !"[[" ++ p ++ ":"%char :: r) = Some (length first, length first + 2 + length p + 1).
Proof.
  induction first as [|c first IH]; intros p r F N N1 N2.
  - destruct p as [|d p]; [contradiction|]. cbn [app find_link_start]. unfold link_start_match. cbn [has_prefix Ascii.eqb Bool.eqb andb skipn].
    change (has_prefix !"[[" ("["%char :: "["%char :: d :: p ++ ":"%char :: r)) with true. cbn iota.
    rewrite (proj2 (Ascii.eqb_neq d "]")) by (intros ->; apply N2; left; auto).
    rewrite prefix_end_at; [|intros I; apply N1; right; auto|intros I; apply N2; right; auto]. cbn [option_map length]. do 2 f_equal. lia.
  - cbn [app find_link_start]. destruct (no_link_fresh _ F) as [_ X]. specialize (X (p ++ ":"%char :: r)). cbn [app] in X.
    assert (M : link_start_match (c :: first ++ !"[[" ++ p ++ ":"%char :: r) = None).
    { unfold link_start_match. destruct (has_prefix _ _) eqn:H; auto. cbn [index app] in X, H. rewrite H in X. discriminate X. }
    cbn [app] in M. rewrite M. pose proof (IH p r (no_link_tail _ _ F) N N1 N2) as I. cbn [app] in I. rewrite I. cbn [option_map fst snd length]. do 2 f_equal.
Qed.

Lemma no_start : forall s, no_link s -> find_link_start s = None.
Proof.
  induction s as [|c s IH]; intros F; auto. cbn [find_link_start]. rewrite IH by exact (no_link_tail _ _ F).
  assert (M : link_start_match (c :: s) = None); [|rewrite M; auto].
  unfold link_start_match. destruct (has_prefix _ _) eqn:H; auto. apply has_prefix_spec in H as (x & H). destruct F as [C _].
  exfalso. apply (proj1 (contains_false _ _) C [] x). exact H.
Qed.

Lemma no_link_app : forall a b, no_link a -> no_link b -> no_link (a ++ b).
Proof.
  intros a b [A1 A2] [B1 B2]. split.
  - destruct (contains !"[[" (a ++ b)) eqn:C; auto. apply contains_spec in C as (x & y & C). exfalso.
    destruct (app_app_cases _ _ _ _ C) as [(z & Z & K)|(z & Z & K)].
    + apply (proj1 (contains_false _ _) B1 z y). exact K.
    + destruct z as [|z1 [|z2 z]].
      * apply (proj1 (contains_false _ _) B1 [] y). symmetry. exact K.
      * cbn in K. injection K as <- _. apply A2. exists x. exact Z.
      * cbn in K. injection K as <- <- _. apply (proj1 (contains_false _ _) A1 x z). exact Z.
  - intros (x & E). destruct b as [|d b] using rev_ind; [rewrite app_nil_r in E; apply A2; exists x; auto|].
    rewrite app_assoc in E. apply app_inj_tail in E as [_ ->]. apply B2. exists b. auto.
Qed.

Lemma key_no_link : forall ty n, type_ok ty -> no_link (token_key ty n).
Proof.
  intros ty n T. assert (N : ~ In "["%char (token_key ty n)).
  { intros I. pose proof (atom_chars _ (token_key_atom ty n T)) as A. rewrite Forall_forall in A. specialize (A _ I). discriminate. }
  split.
  - destruct (contains _ _) eqn:E; auto. apply contains_spec in E as (a & b & E). exfalso. apply N. rewrite E. rewrite !in_app_iff. right. left. left. auto.
  - intros (x & E). apply N. rewrite E. apply in_app_iff. right. left. auto.
Qed.

(** ** The file *)

Lemma split_bars : forall s, exists first others, bar_parts s first others /\ split !"|" s = first :: others.
Proof.
  intros s. remember (length s) as n. revert s Heqn. induction n as [n IH] using lt_wf_ind. intros s ->. change !"|" with ["|"%char].
  destruct (first_char "|" s) as [N|(a & b & -> & N)].
  - exists s, []. split; [|apply split_single_none; auto]. split; [cbn; rewrite app_nil_r; auto|]. split; auto.
  - destruct (IH (length b)) with (s := b) as (f & o & (E & F & O) & Sp); auto; [rewrite app_length; cbn; lia|].
    exists a, (f :: o). split; [|rewrite split_single_app; auto; f_equal; exact Sp]. split; [cbn [map concat]; rewrite E; auto|]. split; auto.
Qed.

Lemma bars_split : forall s first others, bar_parts s first others -> split !"|" s = first :: others.
Proof.
  intros s first others (-> & N & F). revert first N. induction F as [|x l H F IH]; intros first N; cbn [map concat]; change !"|" with ["|"%char] in *.
  - rewrite app_nil_r. apply split_single_none. auto.
  - cbn [app]. rewrite split_single_app; auto. f_equal. apply IH. auto.
Qed.

Lemma bars_join : forall first others, no_char "|" first -> Forall (no_char "|") others -> bar_parts (join !"|" (first :: others)) first others.
Proof.
  intros first others N F. split; [|split; auto]. clear N F. revert first. induction others as [|x l IH]; intros first; [cbn; rewrite app_nil_r; auto|].
  cbn [map concat]. rewrite <- app_assoc. rewrite <- IH. reflexivity.
Qed.

Lemma file_parts : forall s, exists media file, file_of s media file /\
  match split2 !":" s with
  | mediaType :: filename :: _ => (mediaType, trim_space filename)
  | _ => (!"File", trim_space (hd [] (split2 !":" s)))
  end = (media, file) /\ no_char ":" media.
Proof.
  intros s. change !":" with [":"%char]. destruct (first_char ":" s) as [N|(a & b & -> & N)].
  - exists !"File", (trim_space s). rewrite split2_none; auto. split; [left; auto|]. split; auto. intros [H|[H|[H|[H|[]]]]]; discriminate.
  - exists a, (trim_space b). rewrite split2_first; auto. split; [right; exists b; auto|]. split; auto.
Qed.

(** Extensions *)
Lemma no_chars : forall e, no_char "." e -> no_char "/" e -> Forall (fun c => c <> "/"%char /\ c <> "."%char) e.
Proof. intros e A B. apply Forall_forall. intros c I. split; intros ->; auto. Qed.

Lemma ext_go_parts : forall u acc, ext_go u acc = [] \/
  exists v x, u = v ++ "."%char :: x /\ ext_go u acc = "."%char :: rev v ++ acc /\ ~ In "."%char v /\ ~ In "/"%char v.
Proof.
  induction u as [|c u IH]; intros acc; cbn [ext_go]; auto. destruct (Ascii.eqb_spec c "/") as [|N1]; auto. destruct (Ascii.eqb_spec c ".") as [->|N2].
  - right. exists [], u. repeat split; auto.
  - destruct (IH (c :: acc)) as [H|(v & x & -> & H & H1 & H2)]; auto. right. exists (c :: v), x. split; auto. split.
    + rewrite H. cbn [rev]. rewrite <- app_assoc. auto.
    + split; intros [K|K]; auto.
Qed.

Lemma extension_spec : forall file e, extension file e <-> e = trim_prefix !"." (path_ext file).
Proof.
  intros file e. assert (D : forall x, trim_prefix !"." ("."%char :: x) = x) by reflexivity. split.
  - intros [(base & -> & N1 & N2)|(-> & H)].
    + change (base ++ !"." ++ e) with (base ++ "."%char :: e). rewrite (proj2 (path_ext_suffix e (base ++ "."%char :: e) (no_chars e N1 N2))); eauto.
    + unfold path_ext. destruct (ext_go_parts (rev file) []) as [->|(v & x & E & _ & _ & N)]; auto. exfalso. apply N. apply in_rev. apply (H (rev x)).
      rewrite <- (rev_involutive file), E, rev_app_distr. cbn [rev]. rewrite <- app_assoc. auto.
  - intros ->. unfold path_ext. destruct (ext_go_parts (rev file) []) as [E|(v & x & E & -> & N1 & N2)].
    + rewrite E. right. split; auto. intros base x F. destruct (in_dec ascii_dec "/"%char x) as [I|I]; auto. exfalso.
      destruct (last_char "." (!"." ++ x)) as [N|(a & b & F' & N)]; [apply N; left; auto|].
      assert (Nb : no_char "/" b).
      { intros J. destruct a as [|d a]; cbn in F'; injection F'; intros; subst; auto. apply I. apply in_app_iff. right. right. auto. }
      pose proof (proj2 (path_ext_suffix b file (no_chars b N Nb))) as P. unfold path_ext in P. rewrite E in P.
      discriminate P. exists (base ++ a). rewrite F, F'. rewrite <- app_assoc. auto.
    + rewrite app_nil_r, D. left. exists (rev x). split.
      * rewrite <- (rev_involutive file), E, rev_app_distr. cbn [rev]. rewrite <- app_assoc. auto.
      * split; intros I; apply in_rev in I; auto.
Qed.

Section Recursive.
Variable cfg : configuration.
Variable tokenizeContent : str -> M str.
Hypothesis rec_runs : forall t s, unique t -> holds false t (tokenizeContent s) (fun _ _ => True).

Lemma ignored_spec : forall file, ignored_media cfg file = true <-> unwanted_type cfg file.
Proof.
  intros file. unfold ignored_media. set (e := trim_prefix !"." (path_ext file)).
  assert (X : forall y (s : str), negb (str_eqb (to_lower e) y && negb (str_eqb s [])) = true <-> ~ (to_lower e = y /\ s <> [])).
  { intros y s. rewrite negb_true_iff, andb_false_iff, negb_false_iff. destruct (str_eqb (to_lower e) y) eqn:A, (str_eqb s []) eqn:B;
      rewrite ?str_eqb_eq, ?str_eqb_neq in *; intuition congruence. }
  rewrite !andb_true_iff, !X, mem_str_In. split.
  - intros [[A B] C]. exists e. split; [apply extension_spec; auto|]. auto.
  - intros (e' & E & A & B & C). apply extension_spec in E. fold e in E. subst e'. auto.
Qed.

Lemma no_char_trim : forall c s, no_char c s -> no_char c (trim_space s).
Proof. intros c s N I. apply N. apply trim_space_In in I. auto. Qed.

(** The escaped text *)
Lemma escape_value : forall s t r t', escapeImages cfg s t = Ok (r, t') -> exists first others media file, bar_parts s first others /\ file_of first media file /\
    no_char ":" media /\ no_char "|" media /\
    ((unwanted_type cfg file /\ r = []) \/
     (~ unwanted_type cfg file /\ exists name, wiki_name file name /\ bar_parts r (media ++ !":" ++ name) others)).
Proof.
  intros s t r t' E.
  unfold escapeImages in E. destruct (split_bars s) as (first & others & B & Sp). rewrite Sp in E. cbn [hd tl] in E. destruct (file_parts first) as (media & file & F & Fp & Nm). rewrite Fp in E. clear Fp Sp.
  exists first, others, media, file. split; auto. split; auto. split; auto. pose proof B as (_ & Nf & No).
  assert (Nm2 : no_char "|" media).
  { destruct F as [(_ & -> & _)|(rest & -> & _)]; [intros [H|[H|[H|[H|[]]]]]; discriminate|]. intros I. apply Nf. apply in_app_iff. auto. }
  assert (Nfile : no_char "|" file).
  { destruct F as [(_ & _ & ->)|(rest & -> & _ & ->)]; apply no_char_trim; auto. intros I. apply Nf. rewrite !in_app_iff. auto. }
  split; auto. destruct (ignored_media cfg file) eqn:I.
  - injection E as <- _. left. split; auto. apply ignored_spec. auto.
  - right. split; [rewrite <- ignored_spec; congruence|]. unfold bindM in E. cbn [bind] in E.
    destruct (replace_all !"%20" !"_" (replace_all !" " !"_" file)) as [|c x] eqn:R; [discriminate|]. cbn [upper_first bind] in E.
    exists (upper_char c :: x). split; [exists c, x; auto|]. cbn in E. injection E as <- _. apply bars_join; auto.
    intros J. rewrite !in_app_iff in J. destruct J as [J|[[J|[]]|J]]; [auto|discriminate|].
    apply (upper_in "|" (c :: x) _ eq_refl) in J; [|apply upper_only; auto]. rewrite <- R in J.
    apply replace_single_In in J; [|discriminate]. destruct J as [J|[J|[]]]; [|discriminate].
    apply replace_single_In in J; [|discriminate]. destruct J as [J|[J|[]]]; [auto|discriminate].
Qed.

Lemma escape_spec : forall s t, ok false t ->
  holds false t (escapeImages cfg s) (fun _ r => exists first others media file, bar_parts s first others /\ file_of first media file /\
    no_char ":" media /\ no_char "|" media /\
    ((unwanted_type cfg file /\ r = []) \/
     (~ unwanted_type cfg file /\ exists name, wiki_name file name /\ bar_parts r (media ++ !":" ++ name) others))).
Proof.
  intros s t O r t' E. destruct (escapeImages_sound cfg false t s O ltac:(discriminate) r t' E) as (O' & G' & _). split; auto. split; auto.
  eapply escape_value; eauto.
Qed.

(** ** The options *)

Lemma frame_spec : forall o, HasAnyPrefix o imageNonInlineParameters = true <-> frame_option o.
Proof. intros o. unfold HasAnyPrefix, frame_option. cbn [existsb imageNonInlineParameters]. rewrite orb_false_r, orb_true_iff, !has_prefix_spec. tauto. Qed.

Lemma trim_suffix_app : forall p s, trim_suffix p (s ++ p) = s.
Proof.
  intros p s. unfold trim_suffix. rewrite has_suffix_app. rewrite app_length. replace (length s + length p - length p) with (length s) by lia.
  rewrite firstn_app, firstn_all, Nat.sub_diag. cbn [firstn]. apply app_nil_r.
Qed.

Lemma size_spec : forall o x y, ~ frame_option o -> (exists s, o = s ++ !"px") -> (size_option o x y <-> option_size o = (x, y)).
Proof.
  intros o x y F (s & ->). unfold option_size. rewrite trim_suffix_app. change !"x" with ["x"%char]. fold (number (hd [] (split ["x"%char] s))).
  split.
  - intros (_ & s' & E & H). apply app_inv_tail in E. subst s'. destruct H as [(N & -> & ->)|[(a & b & -> & Na & Nb & -> & ->)|(a & b & c & -> & Na & -> & ->)]].
    + rewrite split_single_none; auto.
    + change (a ++ !"x" ++ b) with (a ++ "x"%char :: b). rewrite split_single_app, split_single_none; auto.
    + change (a ++ !"x" ++ b ++ !"x" ++ c) with (a ++ "x"%char :: (b ++ ["x"%char] ++ c)). rewrite split_single_app; auto. cbn [hd]. f_equal.
      assert (L : length (split ["x"%char] (b ++ ["x"%char] ++ c)) <> 1).
      { destruct (first_char "x" (b ++ ["x"%char] ++ c)) as [N|(u & v & -> & N)]; [exfalso; apply N; rewrite !in_app_iff; right; left; left; auto|].
        rewrite split_single_app; auto. pose proof (split_nonempty ["x"%char] v). destruct (split ["x"%char] v); [contradiction|discriminate]. }
      destruct (split ["x"%char] (b ++ ["x"%char] ++ c)) as [|? [|? ?]]; try reflexivity. contradiction L. reflexivity.
  - intros E. split; auto. exists s. split; auto. destruct (first_char "x" s) as [N|(a & b & -> & Na)].
    + left. rewrite split_single_none in E; auto. injection E as <- <-. auto.
    + rewrite split_single_app in E; auto. cbn [hd] in E. right. destruct (first_char "x" b) as [N|(u & v & -> & Nu)].
      * left. rewrite split_single_none in E; auto. injection E as <- <-. exists a, b. repeat split; auto.
      * right. rewrite split_single_app in E; auto. pose proof (split_nonempty ["x"%char] v). destruct (split ["x"%char] v); [contradiction|]. injection E as <- <-.
        exists a, u, v. repeat split; auto.
Qed.

Lemma size_px : forall o x y, size_option o x y -> exists s, o = s ++ !"px".
Proof. intros o x y (_ & s & -> & _). eauto. Qed.

(** The last option is neither frame nor size. *)
Definition other_last (options : list str) (c : str) : Prop :=
  ~ frame_option c /\ (forall x y, ~ size_option c x y) /\ exists others, options = others ++ [c].

Lemma last_cons : forall a l c, other_last (a :: l) c -> l <> [] -> other_last l c.
Proof.
  intros a l c (F & S & others & E) N. split; auto. split; auto. destruct others as [|b others]; [injection E as _ ->; contradiction|].
  injection E as _ E. exists others. auto.
Qed.

Lemma last_more : forall a l c, other_last l c -> other_last (a :: l) c.
Proof. intros a l c (F & S & others & ->). split; auto. split; auto. exists (a :: others). auto. Qed.

Lemma last_of : forall l : list str, l <> [] -> exists others c, l = others ++ [c].
Proof. intros l N. destruct l as [|c l] using rev_ind; [contradiction|]. eauto. Qed.

Definition options_read (t : Tokenizer) (options : list str) (o r : image_options) : Prop :=
  (isImage r = true <-> isImage o = true \/ framed options \/ large options) /\
  (hasCaption r = true <-> hasCaption o = true \/ framed options) /\
  ((xSizeInt r = xSizeInt o /\ ySizeInt r = ySizeInt o /\ forall p x y, In p options -> ~ size_option p x y) \/
   (exists a p b, options = a ++ p :: b /\ size_option p (xSizeInt r) (ySizeInt r) /\ forall q x y, In q b -> ~ size_option q x y)) /\
  (forall c, other_last options c -> isImage r = true -> parsed tokenizeContent t c (caption r)) /\
  ((forall c, ~ other_last options c) -> caption r = caption o).

Lemma options_spec : forall options o t, ok false t ->
  holds false t (parseOptions tokenizeContent options o) (fun t' r => options_read t' options o r).
Proof.
  induction options as [|p options IH]; intros o t O; cbn [parseOptions].
  { apply holds_ret; auto. split; [|split; [|split; [|split]]]; auto.
    - split; auto. intros [H|[(x & [] & _)|(x & ? & ? & [] & _)]]; auto.
    - split; auto. intros [H|(x & [] & _)]; auto.
    - intros c (_ & _ & others & E). destruct others; discriminate. }
  destruct (HasAnyPrefix p _) eqn:F.
  { apply frame_spec in F. eapply holds_weaken; [apply IH; auto|]. cbn beta. intros r t' O' G' (I & H & Z & C & N). cbn [isImage hasCaption xSizeInt ySizeInt caption] in *.
    assert (NS : forall x y, ~ size_option p x y) by (intros x y (K & _); auto).
    split; [|split; [|split; [|split]]].
    - rewrite I. split; [right; left; exists p; split; [left; auto|auto]|left; auto].
    - rewrite H. split; [right; exists p; split; [left; auto|auto]|left; auto].
    - destruct Z as [(X & Y & Z)|(a & q & b & -> & S & Z)].
      + left. split; auto. split; auto. intros q x y [<-|J]; auto.
      + right. exists (p :: a), q, b. auto.
    - intros c L. apply C. apply (last_cons p); auto. intros ->. destruct L as (L & _ & others & E). destruct others as [|? others]; [injection E as ->; auto|].
      injection E as _ E. destruct others; discriminate.
    - intros L. apply N. intros c K. apply (L c). apply last_more. auto. }
  assert (NF : ~ frame_option p) by (rewrite <- frame_spec; congruence). destruct (has_suffix !"px" p) eqn:Px.
  { apply has_suffix_spec in Px. destruct (option_size p) as [x y] eqn:Sz. pose proof (proj2 (size_spec p x y NF Px) Sz) as Sp.
    eapply holds_weaken; [apply IH; auto|]. cbn beta. intros r t' O' G' (I & H & Z & C & N). cbn [isImage hasCaption xSizeInt ySizeInt caption] in *.
    split; [|split; [|split; [|split]]].
    - rewrite I. rewrite !orb_true_iff, !Z.leb_le. split.
      + intros [[[K|K]|K]|[(q & J & K)|(q & x' & y' & J & K)]]; auto.
        * right. right. exists p, x, y. split; [left; auto|]. auto.
        * right. right. exists p, x, y. split; [left; auto|]. auto.
        * right. left. exists q. split; [right; auto|auto].
        * right. right. exists q, x', y'. split; [right; auto|auto].
      + intros [K|[(q & [<-|J] & K)|(q & x' & y' & [<-|J] & K & K')]]; auto.
        * contradiction.
        * right. left. exists q. auto.
        * apply (size_spec p x' y' NF Px) in K. rewrite Sz in K. injection K as <- <-. tauto.
        * right. right. exists q, x', y'. auto.
    - rewrite H. split; (intros [K|(q & J & K)]; [auto|]).
      + right. exists q. split; [right; auto|auto].
      + destruct J as [<-|J]; [contradiction|]. right. exists q. auto.
    - right. destruct Z as [(X & Y & Z)|(a & q & b & -> & S & Z)].
      + exists [], p, options. rewrite X, Y. auto.
      + exists (p :: a), q, b. auto.
    - intros c L. apply C. apply (last_cons p); auto. intros ->. destruct L as (_ & L & others & E). destruct others as [|? others]; [injection E as <-; apply (L x y); auto|].
      injection E as _ E. destruct others; discriminate.
    - intros L. apply N. intros c K. apply (L c). apply last_more. auto. }
  assert (NS : forall x y, ~ size_option p x y).
  { intros x y (_ & s & -> & _). rewrite has_suffix_app in Px. discriminate. }
  assert (Fr : framed (p :: options) <-> framed options).
  { split; intros (q & J & K); [destruct J as [<-|J]; [contradiction|]|]; exists q; split; auto. right. auto. }
  assert (La : large (p :: options) <-> large options).
  { split; intros (q & x & y & J & K & K'); [destruct J as [<-|J]; [exfalso; apply (NS x y); auto|]|]; exists q, x, y; split; auto. right. auto. }
  assert (Sz : forall r, ((xSizeInt r = xSizeInt o /\ ySizeInt r = ySizeInt o /\ forall p x y, In p options -> ~ size_option p x y) \/
     (exists a p b, options = a ++ p :: b /\ size_option p (xSizeInt r) (ySizeInt r) /\ forall q x y, In q b -> ~ size_option q x y)) ->
     ((xSizeInt r = xSizeInt o /\ ySizeInt r = ySizeInt o /\ forall q x y, In q (p :: options) -> ~ size_option q x y) \/
     (exists a q b, p :: options = a ++ q :: b /\ size_option q (xSizeInt r) (ySizeInt r) /\ forall q x y, In q b -> ~ size_option q x y))).
  { intros r [(X & Y & Z)|(a & q & b & -> & S & Z)].
    - left. split; auto. split; auto. intros q x y [<-|J]; auto.
    - right. exists (p :: a), q, b. auto. }
  destruct options as [|p2 options].
  - cbn [length Nat.eqb andb]. destruct (isImage o) eqn:Im.
    + eapply holds_bind; [apply rec_parsed_any; auto|]. cbn beta. intros c t1 O1 G1 P. cbn [parseOptions]. apply holds_ret; auto. cbn [isImage hasCaption xSizeInt ySizeInt caption].
      unfold options_read. cbn [isImage hasCaption xSizeInt ySizeInt caption]. rewrite Fr, La. split; [|split; [|split; [|split]]].
      * rewrite Im. tauto.
      * split; auto. intros [H|(x & [] & _)]; auto.
      * left. split; auto. split; auto. intros q x y [<-|[]]; auto.
      * intros d (_ & _ & others & E) _. destruct others as [|? others]; [injection E as <-; auto|]. injection E as _ E. destruct others; discriminate.
      * intros L. exfalso. apply (L p). split; auto. split; auto. exists []. auto.
    + cbn [parseOptions]. apply holds_ret; auto. unfold options_read. rewrite Fr, La. split; [|split; [|split; [|split]]]; auto.
      * split; auto. intros [H|[(x & [] & _)|(x & ? & ? & [] & _)]]; auto.
      * split; auto. intros [H|(x & [] & _)]; auto.
      * left. split; auto. split; auto. intros q x y [<-|[]]; auto.
      * congruence.
  - change (length (p2 :: options) =? 0) with false. cbn [andb]. eapply holds_weaken; [apply IH; auto|]. cbn beta. intros r t' O' G' (I & H & Z & C & N).
    unfold options_read. rewrite Fr, La. split; [|split; [|split; [|split]]]; auto.
    + intros c L. apply C. apply (last_cons p); auto. discriminate.
    + intros L. apply N. intros c K. apply (L c). apply last_more. auto.
Qed.

(** ** The token *)

Hypothesis plain_prefixes : forall p, In p (lists cfg FilePrefixes) -> ~ frame_option p.

Lemma filter_wanted : forall l, wanted_options cfg l (filter (fun option => negb (HasAnyPrefix option (lists cfg IgnoredImageParams))) l).
Proof.
  induction l as [|o l IH]; cbn [filter]; [constructor|]. assert (X : HasAnyPrefix o (lists cfg IgnoredImageParams) = true <-> ignored_option cfg o).
  { unfold HasAnyPrefix. rewrite existsb_exists. split.
    - intros (p & I & H). apply has_prefix_spec in H as (s & ->). exists p, s. auto.
    - intros (p & s & I & ->). exists p. split; auto. apply has_prefix_app. }
  destruct (HasAnyPrefix _ _); cbn [negb].
  - apply wanted_drop; auto. apply X. auto.
  - apply wanted_keep; auto. rewrite <- X. discriminate.
Qed.

Lemma prefix_within : forall w media x, ~ In ":"%char w -> (exists s, media ++ !":" ++ x = w ++ s) -> exists s, media = w ++ s.
Proof.
  intros w media x N (s & E). destruct (app_app_cases _ _ _ _ E) as [(z & Z & K)|(z & Z & K)].
  - destruct z as [|c z]; [exists []; rewrite app_nil_r in *; auto|]. cbn in K. injection K as <- _. exfalso. apply N. rewrite Z. apply in_app_iff. right. left. auto.
  - exists z. auto.
Qed.

Lemma first_not_frame : forall media x, In (to_lower media) (lists cfg FilePrefixes) -> ~ frame_option (media ++ !":" ++ x).
Proof.
  intros media x I [H|H]; (apply prefix_within in H as (s & ->); [|cbn; intuition discriminate]); apply (plain_prefixes _ I); unfold to_lower; rewrite map_app;
    [left|right]; eexists; reflexivity.
Qed.

Lemma first_not_size : forall media c name x y, ~ (exists s, c :: name = s ++ !"px") -> ~ size_option (media ++ !":" ++ c :: name) x y.
Proof.
  intros media c name x y N S. apply size_px in S as (s & E). apply N. change (media ++ !":" ++ c :: name) with (media ++ [":"%char] ++ c :: name) in E.
  rewrite app_assoc in E. destruct (app_app_cases _ _ _ _ E) as [(z & Z & K)|(z & Z & K)]; [exists z; auto|].
  destruct z as [|a [|b z]]; [exists []; cbn in *; auto| |].
  - injection K as <- <- <-. apply app_inj_tail in Z as [_ Z]. discriminate.
  - apply (f_equal (@length ascii)) in K. rewrite app_length in K. cbn [length] in K. lia.
Qed.

Definition token_result (t : Tokenizer) (name : str) (options : list str) (token : Token) : Prop :=
  exists x y, size_of options x y /\
  (((framed options \/ large options) /\ exists caption, token = ImageToken name caption x y /\
      (forall o, has_caption options o -> parsed tokenizeContent t o caption) /\ ((forall o, ~ has_caption options o) -> caption = [])) \/
   (~ framed options /\ ~ large options /\ token = InlineImageToken name x y)).

Definition options_token (name : str) (o : image_options) : Token :=
  if isImage o then ImageToken name (if hasCaption o then caption o else []) (xSizeInt o) (ySizeInt o) else InlineImageToken name (xSizeInt o) (ySizeInt o).

Lemma read_token : forall t name options o, options_read t options (mkImageOptions false false [] (-1) (-1)) o -> token_result t name options (options_token name o).
Proof.
  intros t name options o (I & H & Z & C & N). cbn [isImage hasCaption xSizeInt ySizeInt caption] in *. exists (xSizeInt o), (ySizeInt o). split.
  { destruct Z as [(X & Y & Z)|Z]; [left; auto|right; auto]. }
  unfold options_token. destruct (isImage o) eqn:Im.
  - left. destruct (proj1 I eq_refl) as [K|K]; [discriminate|]. split; auto. eexists. split; [reflexivity|]. split.
    + intros c (F & A & B & E). rewrite (proj2 H) by auto. apply C; auto. split; auto.
    + intros L. destruct (hasCaption o) eqn:Hc; auto. destruct (proj1 H eq_refl) as [D|F]; [discriminate|]. apply N. intros c (A & B & E). apply (L c). split; auto.
  - right. split; [|split; auto]; intros K; assert (X : false = true) by (apply I; auto); discriminate.
Qed.

Lemma first_token : forall t name p options o, ~ frame_option p -> (forall x y, ~ size_option p x y) ->
  options_read t (p :: options) (mkImageOptions false false [] (-1) (-1)) o -> token_result t name options (options_token name o).
Proof.
  intros t name p options o NF NS (I & H & Z & C & N). cbn [isImage hasCaption xSizeInt ySizeInt caption] in *.
  assert (Fr : framed (p :: options) <-> framed options).
  { split; intros (q & J & K); [destruct J as [<-|J]; [contradiction|]|]; exists q; split; auto. right. auto. }
  assert (La : large (p :: options) <-> large options).
  { split; intros (q & x & y & J & K & K'); [destruct J as [<-|J]; [exfalso; apply (NS x y); auto|]|]; exists q, x, y; split; auto. right. auto. }
  rewrite Fr, La in *. exists (xSizeInt o), (ySizeInt o). split.
  { destruct Z as [(X & Y & Z)|(a & q & b & E & S & Z)].
    - left. split; auto. split; auto. intros. apply Z. right. auto.
    - right. destruct a as [|a0 a]; injection E as <- E; [exfalso; eapply NS; eauto|]. exists a, q, b. auto. }
  unfold options_token. destruct (isImage o) eqn:Im.
  - left. destruct (proj1 I eq_refl) as [K|K]; [discriminate|]. split; auto. eexists. split; [reflexivity|]. split.
    + intros c (F & A & B & E). rewrite (proj2 H) by auto. apply C; auto. apply last_more. split; auto.
    + intros L. destruct (hasCaption o) eqn:Hc; auto. destruct (proj1 H eq_refl) as [D|F]; [discriminate|]. apply N. intros c J. apply (L c). split; auto.
      apply (last_cons p); auto. intros ->. destruct F as (? & [] & _).
  - right. split; [|split; auto]; intros K; assert (X : false = true) by (apply I; auto); discriminate.
Qed.

Lemma image_token_spec : forall s media c name others t, ok false t -> no_char ":" media -> bar_parts s (media ++ !":" ++ c :: name) others ->
  In (to_lower media) (lists cfg FilePrefixes) ->
  holds false t (image_token cfg tokenizeContent s) (fun t' key => no_link key /\ exists options token, counted_options cfg media (c :: name) others options /\
    In (key, token) (tokenMap t') /\ token_result t' (c :: name) options token).
Proof.
  intros s media c name others t O Nm B I. unfold image_token. rewrite (bars_split _ _ _ B). cbn [hd].
  change (media ++ !":" ++ c :: name) with (media ++ ":"%char :: c :: name). change !":" with [":"%char]. rewrite split2_first; auto.
  set (first := media ++ ":"%char :: c :: name). set (f := fun option => negb (HasAnyPrefix option (lists cfg IgnoredImageParams))).
  apply (holds_bind _ _ false t _ _ (fun t' x => x = c :: name)); [apply (holds_ret _ false t (c :: name)); auto|]. cbn beta. intros x t1 O1 G1 ->.
  eapply holds_bind; [apply options_spec; auto|]. cbn beta. intros o t2 O2 G2 R.
  assert (T : exists options, counted_options cfg media (c :: name) others options /\ token_result t2 (c :: name) options (options_token (c :: name) o)).
  { destruct (has_suffix !"px" (c :: name)) eqn:Px.
    - apply has_suffix_spec in Px. exists (filter f (first :: others)). split; [right; split; [auto|apply filter_wanted]|apply read_token; auto].
    - assert (Np : ~ (exists x, c :: name = x ++ !"px")) by (intros Np; apply has_suffix_spec in Np; congruence).
      exists (filter f others). split; [left; split; [auto|apply filter_wanted]|]. cbn [filter] in R. destruct (f first); [|apply read_token; auto]. apply (first_token t2 (c :: name) first); auto.
      + apply first_not_frame. auto.
      + intros. apply first_not_size. auto. }
  destruct T as (options & Co & T).
  set (ty := if isImage o then TOKEN_IMAGE else TOKEN_IMAGE_INLINE).
  replace (if isImage o then _ else _) with (ty, options_token (c :: name) o) by (unfold ty, options_token; destruct (isImage o); auto).
  assert (Ty : type_ok ty) by (unfold ty; destruct (isImage o); apply nowiki_types).
  apply (holds_token_in _ false t2 ty (options_token (c :: name) o) (fun k => ret k)); auto; [apply good_false|].
  intros t3 n O3 G3 J. apply holds_ret; auto. split; [apply key_no_link; auto|]. exists options, (options_token (c :: name) o). split; auto. split; auto.
  destruct T as (x & y & S & [(Fr & cap & E & P & N)|K]); exists x, y; split; auto. left. split; auto. exists cap. split; auto. split; auto.
  intros d D. eapply parsed_mono; [apply grows_keeps|]; eauto.
Qed.

(** ** The loop *)

Lemma parsed_as_grows : forall t t' s c, unique t' -> grows t t' -> parsed_as tokenizeContent t s c -> parsed_as tokenizeContent t' s c.
Proof.
  intros t t' s c U G (t1 & t2 & U1 & E & X). exists t1, t2. split; auto. split; auto. intros k v K. apply (keeps_extends t t'); auto. apply grows_keeps. auto.
Qed.

Lemma picture_result_grows : forall t t' p piece, unique t' -> grows t t' -> picture_result cfg tokenizeContent t p piece -> picture_result cfg tokenizeContent t' p piece.
Proof.
  intros t t' p piece U G (inner & first & others & media & file & P & B & F & N & Y). exists inner, first, others, media, file.
  split; [eapply parsed_as_grows; eauto|]. do 3 (split; auto). intros H1 H2. destruct (Y H1 H2) as (name & token & options & Wn & L & Co & T). exists name, token, options. split; auto.
  split; [apply (keeps_extends t t'); auto; apply grows_keeps; auto|]. split; auto.
  destruct T as (x & y & S & [(Fr & cap & E & Q & Nc)|K]); exists x, y; split; auto. left. split; auto. exists cap. split; auto. split; auto.
  intros d D. eapply parsed_as_grows; eauto.
Qed.

Lemma piece_spec : forall p t, ok false t -> holds false t
  (do! imageContent := tokenizeContent (body p) in
   do! imageContent := escapeImages cfg imageContent in
   if str_eqb imageContent [] || negb (mem_str (to_lower (hd [] (split2 !":" imageContent))) (lists cfg FilePrefixes)) then ret []
   else image_token cfg tokenizeContent imageContent)
  (fun t' piece => no_link piece /\ picture_result cfg tokenizeContent t' p piece).
Proof.
  intros p t O. eapply holds_bind; [apply rec_parsed_any; auto|]. cbn beta. intros inner t1 O1 G1 P. eapply holds_bind; [apply escape_spec; auto|].
  cbn beta. intros r t2 O2 G2 (first & others & media & file & B & F & Nm & Nb & D).
  assert (NL : no_link []) by (split; [reflexivity|]; intros (x & X); destruct x; discriminate).
  assert (P' : forall t', ok false t' -> grows t2 t' -> parsed_as tokenizeContent t' (body p) inner).
  { intros t' O' G'. apply parsed_spec; [apply O'|]. eapply parsed_mono; [apply grows_keeps; exact (grows_trans _ _ _ G2 G')|]. auto. }
  destruct D as [(U & ->)|(U & name & Wn & Br)].
  - cbn [str_eqb orb]. apply holds_ret; auto. split; auto. exists inner, first, others, media, file. split; [apply P'; auto; apply grows_refl|].
    split; auto. split; auto. split; [auto|]. intros K. contradiction.
  - pose proof Wn as (c & x & _ & ->). assert (Er : exists z, r = media ++ ":"%char :: z).
    { destruct Br as (-> & _). exists ((upper_char c :: x) ++ concat (map (app !"|") others)). rewrite <- !app_assoc. auto. }
    destruct Er as (z & Er). replace (str_eqb r []) with false by (symmetry; apply str_eqb_neq; rewrite Er; destruct media; discriminate).
    cbn [orb]. replace (hd [] (split2 !":" r)) with media by (rewrite Er; change !":" with [":"%char]; rewrite split2_first; auto).
    destruct (mem_str (to_lower media) (lists cfg FilePrefixes)) eqn:M; cbn [negb].
    + apply mem_str_In in M. eapply holds_weaken; [apply (image_token_spec r media (upper_char c) x others); auto|]. cbn beta.
      intros key t3 O3 G3 (NK & options & token & W & I & T). split; auto. exists inner, first, others, media, file. split; [apply P'; auto|].
      split; auto. split; auto. split; [intros [K|K]; contradiction|]. intros _ _. exists (upper_char c :: x), token, options. split; auto.
      split; [apply In_lookup; [apply O3|]; auto|]. split; auto.
      destruct T as (u & v & S & [(Fr & cap & E & Q & Nc)|K]); exists u, v; split; auto. left. split; auto. exists cap. split; auto. split; auto.
      intros d Hd. apply parsed_spec; auto. apply O3.
    + apply holds_ret; auto. split; auto. exists inner, first, others, media, file. split; [apply P'; auto; apply grows_refl|].
      split; auto. split; auto. split; auto. intros _ K. exfalso. apply mem_str_In in K. congruence.
Qed.

Lemma images_loop : forall pictures fuel first t, ok false t -> no_link first -> Forall picture_ok pictures ->
  holds false t (parseImages_go cfg tokenizeContent fuel (first ++ concat (map picture_wikitext pictures)))
    (fun t' r => exists pieces, r = pictures_replaced first pictures pieces /\ Forall2 (picture_result cfg tokenizeContent t') pictures pieces).
Proof.
  induction pictures as [|p pictures IH]; intros fuel first t O F H; (destruct fuel as [|fuel]; cbn [parseImages_go]; [apply holds_fuel|]); cbn [map concat].
  - rewrite app_nil_r, (no_start first F). apply holds_ret; auto. exists []. split; [unfold pictures_replaced; cbn; rewrite app_nil_r; auto|constructor].
  - pose proof (Forall_inv H) as (Ne & N1 & N2 & N3 & Bo & Na). apply Forall_inv_tail in H.
    set (rest := concat (map picture_wikitext pictures)).
    set (before := first ++ !"[[" ++ prefix p ++ !":").
    assert (Ec : first ++ picture_wikitext p ++ rest = before ++ body p ++ !"]]" ++ after_picture p ++ rest).
    { unfold picture_wikitext, before. rewrite <- !app_assoc. auto. }
    assert (Lb : length before = length first + 2 + length (prefix p) + 1). { unfold before. rewrite !app_length. cbn. lia. }
    replace (find_link_start (first ++ picture_wikitext p ++ rest)) with (Some (length first, length before)).
    2:{ rewrite Lb. symmetry. unfold picture_wikitext. rewrite <- !app_assoc. apply start_found; auto. }
    rewrite Ec. rewrite close_picture; auto.
    replace (sub (before ++ body p ++ !"]]" ++ after_picture p ++ rest) (length before) (length before + length (body p))) with (body p).
    2:{ unfold sub. rewrite skipn_app, skipn_all, Nat.sub_diag. cbn [app skipn]. replace (length before + length (body p) - length before) with (length (body p)) by lia.
        rewrite firstn_app, firstn_all, Nat.sub_diag. cbn [firstn]. rewrite app_nil_r. auto. }
    replace (firstn (length first) (before ++ body p ++ !"]]" ++ after_picture p ++ rest)) with first.
    2:{ unfold before. rewrite <- app_assoc, firstn_app, firstn_all, Nat.sub_diag. cbn [firstn]. rewrite app_nil_r. auto. }
    replace (skipn (length before + length (body p) + 2) (before ++ body p ++ !"]]" ++ after_picture p ++ rest)) with (after_picture p ++ rest).
    2:{ rewrite app_assoc. rewrite skipn_app. rewrite app_length. rewrite skipn_all2 by (rewrite app_length; lia).
        replace (length before + length (body p) + 2 - (length before + length (body p))) with 2 by lia. auto. }
    replace (length (before ++ body p ++ !"]]" ++ after_picture p ++ rest) <? length before + length (body p) + 2) with false.
    2:{ symmetry. apply Nat.ltb_ge. rewrite !app_length. cbn [length]. lia. }
    intros r t' E.
    pose proof (holds_bind _ _ false t _ (fun token => parseImages_go cfg tokenizeContent fuel (first ++ token ++ after_picture p ++ rest)) _
      (fun t' r => exists pieces, r = pictures_replaced first (p :: pictures) pieces /\ Forall2 (picture_result cfg tokenizeContent t') (p :: pictures) pieces) (piece_spec p t O)) as X.
    apply X.
    + cbn beta. intros piece t1 O1 G1 (NL & R).
      replace (first ++ piece ++ after_picture p ++ rest) with ((first ++ piece ++ after_picture p) ++ rest) by (rewrite <- !app_assoc; auto).
      eapply holds_weaken; [apply IH; auto|].
      { apply no_link_app; auto. apply no_link_app; auto. }
      cbn beta. intros r' t2 O2 G2 (pieces & -> & F2). exists (piece :: pieces). split.
      * unfold pictures_replaced. cbn [combine map concat fst snd]. rewrite <- !app_assoc. auto.
      * constructor; auto. eapply picture_result_grows; eauto. apply O2.
    + clear X. revert E. unfold bindM. destruct (tokenizeContent (body p) t) as [[inner t1]| | |]; auto. cbn [bind].
      destruct (escapeImages cfg inner t1) as [[esc t2]| | |]; auto.
Qed.
End Recursive.
