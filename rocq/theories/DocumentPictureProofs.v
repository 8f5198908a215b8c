(** * Pictures in a document *)

From Coq Require Import Ascii String.
From Coq Require Import List Arith NArith ZArith Bool Lia DecimalString DecimalNat.
From Verif Require Import GoStr GoStrFacts TextFacts TrimFacts UtilModel BracketModel ConfigModel TokenModel TokenSpec TokenProofs PassSpec MarkupSpec SafeSpec.
From Verif Require Import FormattingSpec FormattingProofs ImageModel TokenizerModel JudgeProofs PassProofs HeadingProofs LinkProofs NowikiProofs ShapeProofs.
From Verif Require PictureSpec PictureProofs.
From Verif Require Import MathQuietProofs PropPasses DocumentSpec DocumentSettledProofs DocumentLineProofs.
Import ListNotations.
Local Open Scope list_scope.

(** ** Numbers *)

Lemma uint_digits : forall d acc, digits_val (Z.of_nat acc) (list_ascii_of_string (NilEmpty.string_of_uint d)) = Some (Z.of_nat (Nat.of_uint_acc d acc)).
Proof.
  assert (X : forall acc k, (Z.of_nat acc * 10 + (Z.of_nat (48 + k) - 48))%Z = Z.of_nat (k + Nat.tail_mul 10 acc)).
  { intros. rewrite Nat.tail_mul_spec. lia. }
  induction d as [|d IH|d IH|d IH|d IH|d IH|d IH|d IH|d IH|d IH|d IH]; intros acc; [reflexivity|..]; cbn [NilEmpty.string_of_uint list_ascii_of_string digits_val Nat.of_uint_acc].
  - change (is_digit "0") with true. cbn iota. rewrite <- IH. f_equal. exact (X acc 0).
  - change (is_digit "1") with true. cbn iota. rewrite <- IH. f_equal. exact (X acc 1).
  - change (is_digit "2") with true. cbn iota. rewrite <- IH. f_equal. exact (X acc 2).
  - change (is_digit "3") with true. cbn iota. rewrite <- IH. f_equal. exact (X acc 3).
  - change (is_digit "4") with true. cbn iota. rewrite <- IH. f_equal. exact (X acc 4).
  - change (is_digit "5") with true. cbn iota. rewrite <- IH. f_equal. exact (X acc 5).
  - change (is_digit "6") with true. cbn iota. rewrite <- IH. f_equal. exact (X acc 6).
  - change (is_digit "7") with true. cbn iota. rewrite <- IH. f_equal. exact (X acc 7).
  - change (is_digit "8") with true. cbn iota. rewrite <- IH. f_equal. exact (X acc 8).
  - change (is_digit "9") with true. cbn iota. rewrite <- IH. f_equal. exact (X acc 9).
Qed.

Lemma itoa_value : forall n, digits_val 0 (itoa n) = Some (Z.of_nat n).
Proof.
  intros n. unfold itoa. pose proof (uint_digits (Nat.to_uint n) 0) as E. change (Nat.of_uint_acc (Nat.to_uint n) 0) with (Nat.of_uint (Nat.to_uint n)) in E. rewrite DecimalNat.Unsigned.of_to in E.
  destruct (Nat.to_uint n); exact E.
Qed.

Lemma itoa_first : forall n, exists c s, itoa n = c :: s /\ is_digit c = true.
Proof. intros n. pose proof (itoa_nonempty n) as N. pose proof (itoa_digits n) as D. destruct (itoa n) as [|c s]; [contradiction|]. inversion D; subst. eauto. Qed.

Lemma digit_cases : forall c, is_digit c = true -> solid c = true /\ Ascii.eqb c "-" = false /\ Ascii.eqb c "+" = false /\ c <> "m"%char /\ c <> "t"%char.
Proof. intros [[] [] [] [] [] [] [] []] D; try discriminate D; repeat split; try reflexivity; discriminate. Qed.

Lemma atoi_itoa : forall n, Z.lt (Z.of_nat n) (2 ^ 63) -> atoi (itoa n) = Some (Z.of_nat n).
Proof.
  intros n L. unfold atoi. assert (E : atoi_raw (itoa n) = Some (Z.of_nat n)).
  { destruct (itoa_first n) as (c & s & I & D). destruct (digit_cases c D) as (_ & E1 & E2 & _). unfold atoi_raw. rewrite <- itoa_value, I, E1, E2. reflexivity. }
  rewrite E. assert (B : in_int64 (Z.of_nat n) = true); [|rewrite B; auto]. unfold in_int64. rewrite andb_true_iff, !Z.leb_le. lia.
Qed.

Lemma itoa_trim : forall n, trim_space (itoa n) = itoa n.
Proof.
  intros n. apply trim_solid. pose proof (itoa_digits n) as D. destruct (itoa_first n) as (c & s & E & C). exists c. split; [apply digit_cases; auto|]. split; [eauto|].
  destruct (itoa n) as [|d x] eqn:I using rev_ind; [discriminate|]. exists d, x. split; auto. rewrite Forall_forall in D. apply digit_cases. apply D. apply in_app_iff. right. left. auto.
Qed.

Lemma number_itoa : forall n, Z.lt (Z.of_nat n) (2 ^ 63) -> PictureSpec.number (itoa n) = Z.of_nat n.
Proof. intros n L. unfold PictureSpec.number. rewrite itoa_trim, atoi_itoa; auto. Qed.

(** ** The token of a picture *)

Definition picture_size (p : picture) : Z * Z := match size p with Some (width, height) => (Z.of_nat width, Z.of_nat height) | None => (-1, -1)%Z end.
Definition picture_token (p : picture) : Token :=
  if as_figure p then ImageToken (wiki_file (file_name p)) (shown_caption p) (fst (picture_size p)) (snd (picture_size p))
  else InlineImageToken (wiki_file (file_name p)) (fst (picture_size p)) (snd (picture_size p)).

Section Pictures.
Context {cfg : configuration}.
Hypothesis P : prefixes_ok cfg.

Lemma ascii_solid : forall c s, N.lt (N_of_ascii c) 128 -> trim_space (c :: s) = c :: s -> solid c = true.
Proof.
  intros c s L T. apply trimmed_iff in T as [T _]. destruct (solid c) eqn:E; auto. exfalso.
  assert (X : In [c] space_runes) by (revert L E; destruct c as [[] [] [] [] [] [] [] []]; intros L E; vm_compute in L, E |- *; try discriminate L; try discriminate E; tauto).
  specialize (T [c] X). rewrite has_prefix_single in T. rewrite Ascii.eqb_refl in T. discriminate.
Qed.

Lemma file_first : forall p, picture_ok cfg p -> exists c s, file_name p = c :: s /\ solid c = true.
Proof. intros p (_ & _ & _ & _ & _ & (c & s & E & L) & _ & T & _). exists c, s. split; auto. rewrite E in T. eapply ascii_solid; eauto. Qed.

(** *** Captions with the keys of their links *)

Lemma key_atom : forall t k v, unique t -> In (k, v) (tokenMap t) -> atom k.
Proof. intros t k v [F _] I. rewrite Forall_forall in F. destruct (F k) as (ty & i & T & -> & _); [apply (in_map fst) in I; exact I|]. apply token_key_atom. auto. Qed.

Lemma linked_prefix : forall t c c' q z, unique t -> Forall2 (phrase_linked t) c c' -> ~ In "$"%char q -> caption_wikitext c' = q ++ z -> exists z', caption_wikitext c = q ++ z'.
Proof.
  intros t c c' q z U F. revert q. induction F as [|x x' c c' H F IH]; intros q N E; [exists z; exact E|]. unfold caption_wikitext in *. cbn [map concat] in *. destruct x as [s|a label].
  - cbn [phrase_linked] in H. subst x'. cbn [phrase_wikitext] in *. apply app_eq_app in E as (m & [[-> _]|[-> E]]); [rewrite <- app_assoc; eauto|].
    destruct (IH m) as (z' & ->); [intros I; apply N; apply in_app_iff; auto|auto|]. exists z'. rewrite <- app_assoc. auto.
  - destruct H as (key & b & -> & _ & I). destruct (key_atom t _ _ U I) as (y & -> & _). cbn [phrase_wikitext] in E. destruct q as [|d q]; [eexists; reflexivity|]. exfalso. injection E as <- _. apply N. left. auto.
Qed.

Lemma linked_suffix : forall t c c' q z, unique t -> Forall2 (phrase_linked t) c c' -> ~ In "$"%char q -> caption_wikitext c' = z ++ q -> exists z', caption_wikitext c = z' ++ q.
Proof.
  intros t c c' q z U F. revert c' F q z. induction c as [|x c IH] using rev_ind; intros c' F q z N E; [inversion F; subst; eauto|].
  apply Forall2_app_inv_l in F as (c1 & c2 & F1 & F2 & ->). inversion F2 as [|? x' ? y H F3]; subst. inversion F3; subst. unfold caption_wikitext in *. rewrite map_app, concat_app in *. cbn [map concat] in *. rewrite app_nil_r in *.
  destruct x as [s|a label].
  - cbn [phrase_linked] in H. subst x'. cbn [phrase_wikitext] in *. apply app_eq_app in E as (m & [[H1 H2]|[-> H2]]).
    + subst q. destruct (IH _ F1 m z) as (z' & ->); [intros I; apply N; apply in_app_iff; auto|auto|]. exists z'. rewrite <- app_assoc. auto.
    + subst s. rewrite app_assoc. eauto.
  - destruct H as (key & b & -> & _ & I). destruct (key_atom t _ _ U I) as (y & -> & _). cbn [phrase_wikitext] in E. destruct q as [|d q _] using rev_ind; [eexists; rewrite app_nil_r; reflexivity|]. exfalso.
    change (!"$$" ++ y ++ !"$$") with (!"$$" ++ y ++ [("$"%char)] ++ [("$"%char)]) in E. rewrite !app_assoc in E. apply app_inj_tail in E as [_ <-]. apply N. apply in_app_iff. right. left. auto.
Qed.

(** A picture behind the pass for links *)
Definition half (p' : picture) : Prop := exists t p, unique t /\ picture_ok cfg p /\ captioned t p p'.

Definition bare (p : picture) : picture := mkPicture (file_prefix p) (file_name p) (thumbnail p) (size p) None.

Lemma bare_options : forall p, picture_options (bare p) = frame_options p.
Proof. intros p. rewrite options_parts. unfold caption_option. cbn [bare caption_text]. apply app_nil_r. Qed.

Lemma bare_ok : forall p, picture_ok cfg p -> picture_ok cfg (bare p).
Proof.
  intros p (A1 & A2 & A3 & A4 & A5 & A6 & A7 & A8 & A9 & A10 & A11 & A12 & A13 & A14 & A15 & A16 & A17). unfold picture_ok. rewrite bare_options. rewrite options_parts in A15. apply Forall_app in A15 as [A15 _].
  cbn [bare file_prefix file_name size caption_text]. repeat (split; [assumption|]). discriminate.
Qed.

Lemma half_bare : forall p, half p -> picture_ok cfg (bare p).
Proof. intros p' (t & p & _ & A & C). unfold captioned in C. destruct (caption_text p); [destruct C as (c' & _ & ->)|subst p']; apply (bare_ok p A). Qed.

(** What the parser needs to know about a caption *)
Definition caption_half (k : str) : Prop :=
  (forall c, In c (!"[]{}|<>" ++ nl) -> ~ In c k) /\ no_block_start k /\ ~ PictureSpec.frame_option k /\ ~ (exists s, k = s ++ !"px") /\ ~ PictureSpec.ignored_option cfg k /\ plain k.

Lemma half_caption : forall p c, half p -> caption_text p = Some c -> caption_half (caption_wikitext c) /\ concat (map phrase_html c) = caption_wikitext c.
Proof.
  intros p' c' (t & p & U & A & C) E. unfold captioned in C. destruct (caption_text p) as [c|] eqn:Cp; [destruct C as (c0 & F & ->); cbn in E; injection E as ->|subst p'; congruence].
  pose proof A as (_ & _ & _ & _ & _ & _ & _ & _ & _ & _ & _ & _ & _ & _ & Ig & _ & Cap). destruct (Cap c Cp) as (Ph & B & N1 & N2 & D). clear Cap. split.
  - split; [|split; [|split; [|split; [|split]]]].
    + intros d I J. apply in_concat in J as (x & X & J). apply in_map_iff in X as (y & <- & X). clear -F Ph I J X U. induction F as [|x x' l l' H F IH]; [destruct X|]. inversion Ph as [|? ? P1 P2]; subst. destruct X as [<-|X]; [|auto].
      destruct x as [s|a label]; cbn [phrase_linked phrase_ok] in *.
      * subst x'. cbn [phrase_wikitext] in J. revert J. apply letter_not; auto. cbn in I |- *. intuition.
      * destruct H as (key & b & -> & _ & K). cbn [phrase_wikitext] in J. pose proof (atom_chars _ (key_atom t _ _ U K)) as Q. rewrite Forall_forall in Q. apply Q in J. cbn in I. repeat (destruct I as [<-|I]; [discriminate J|]). destruct I.
    + rewrite start_iff in B |- *. intros a d x E Bl I. assert (G : exists z, caption_wikitext c = (a ++ [d]) ++ z).
      { eapply (linked_prefix t c c' (a ++ [d]) x); auto; [|rewrite <- app_assoc; exact E]. intros J. apply in_app_iff in J as [J|[->|[]]]; [eapply blank_no_solid in Bl; [|exact J]; discriminate Bl|]. cbn in I. intuition discriminate. }
      destruct G as (z & G). rewrite <- app_assoc in G. apply (B a d z G Bl I).
    + intros [(s & H)|(s & H)]; apply N1; [left; apply (linked_prefix t c c' !"mini" s U F)|right; apply (linked_prefix t c c' !"thumb" s U F)]; auto; cbn; intuition discriminate.
    + intros (s & H). apply N2. apply (linked_suffix t c c' !"px" s U F); auto. cbn. intuition discriminate.
    + intros (q & z & I & H). rewrite options_parts in Ig. apply Forall_app in Ig as [_ Ig]. unfold caption_option in Ig. rewrite Cp in Ig. inversion Ig as [|? ? Ig1 _]; subst.
      assert (X : (exists a label, In (Linked a label) c) \/ c' = c).
      { clear -F. induction F as [|x x' l l' H F IH]; auto. destruct x as [s|a label]; [|left; exists a, label; left; auto]. cbn [phrase_linked] in H. subst x'. destruct IH as [(a & label & I)| -> ]; auto. left. exists a, label. right. auto. }
      destruct X as [(a & label & L)|X]; [|subst c'; apply Ig1; exists q, z; auto].
      destruct (linked_prefix t c c' q z U F) as (z' & Z); auto; [|apply Ig1; exists q, z'; auto]. specialize (D _ _ L). rewrite Forall_forall in D. apply D. auto.
    + apply concat_plain. apply Forall_map. clear -F Ph U. induction F as [|x x' l l' H F IH]; constructor; inversion Ph as [|? ? P1 P2]; subst; auto.
      destruct x as [s|a label]; cbn [phrase_linked] in H; [subst x'; apply phrase_plain; auto|]. destruct H as (key & b & -> & _ & K). cbn [phrase_wikitext]. apply plain_without. intros J.
      pose proof (atom_chars _ (key_atom t _ _ U K)) as Q. rewrite Forall_forall in Q. apply Q in J. discriminate J.
  - clear -F. induction F as [|x x' l l' H F IH]; auto. unfold caption_wikitext in *. cbn [map concat]. rewrite IH. f_equal. destruct x; cbn [phrase_linked] in H; [subst x'; auto|]. destruct H as (key & b & -> & _). auto.
Qed.

Lemma half_body_chars : forall p c, half p -> In c (!"[]{}<>" ++ nl) -> ~ In c (picture_body p).
Proof.
  intros p c H I J. pose proof (half_bare p H) as A. apply in_app_iff in J as [J|J].
  - destruct A as (_ & _ & _ & _ & _ & _ & F & _). rewrite Forall_forall in F. apply (F c J). cbn in I |- *. intuition.
  - apply in_concat in J as (x & X & J). apply in_map_iff in X as (o & <- & X). apply in_app_iff in J as [J|J]; [cbn in I, J; intuition (subst; discriminate)|].
    rewrite options_parts in X. apply in_app_iff in X as [X|X]; [revert J; apply (frame_chars p); auto; cbn in I |- *; intuition|].
    unfold caption_option in X. destruct (caption_text p) as [k|] eqn:E; [destruct X as [<-|[]]|destruct X]. destruct (half_caption p k H E) as ((C & _) & _). apply (C c); auto. cbn in I |- *. intuition.
Qed.

Lemma half_body_plain : forall p, half p -> plain (picture_body p).
Proof.
  intros p H. pose proof (half_bare p H) as A. apply plain_app.
  - apply plain_without. destruct A as (_ & _ & _ & _ & _ & _ & F & _). rewrite Forall_forall in F. intros J. apply (F _ J). cbn. auto.
  - apply concat_plain. apply Forall_map. apply Forall_forall. intros o X. apply plain_app; [marks|]. rewrite options_parts in X. apply in_app_iff in X as [X|X].
    + apply plain_without. apply (frame_chars p); auto. cbn. auto.
    + unfold caption_option in X. destruct (caption_text p) as [k|] eqn:E; [destruct X as [<-|[]]|destruct X]. apply (half_caption p k H E).
Qed.

Lemma half_options : forall p, half p -> Forall (fun o => ~ In "|"%char o) (picture_options p).
Proof.
  intros p H. rewrite options_parts. apply Forall_app. split; [apply Forall_forall; intros o I; apply (frame_chars p); auto; cbn; auto 10|]. unfold caption_option.
  destruct (caption_text p) as [k|] eqn:E; constructor; auto. destruct (half_caption p k H E) as ((C & _) & _). apply C. cbn. auto 10.
Qed.

Lemma body_settled : forall p, half p -> settled (picture_body p).
Proof.
  intros p H. apply settled_single.
  - intros c I. apply half_body_chars; auto. cbn in I |- *. intuition.
  - apply (half_body_plain p H).
  - apply half_body_chars; auto. apply in_app_iff. right. left. auto.
  - pose proof (half_bare p H) as A. destruct (file_first _ A) as (c & s & E & S). cbn [bare file_name] in E. destruct A as (_ & _ & _ & _ & _ & _ & _ & _ & B & _). rewrite start_iff in B |- *. intros a d x G Bl.
    unfold picture_body in G. cbn [bare file_name] in B. rewrite E in *. destruct a as [|e a].
    + cbn [app] in G. injection G as <- _. apply (B [] c s); auto.
    + cbn [app] in G. injection G as <- _. eapply blank_no_solid in Bl; [|left; reflexivity]. congruence.
Qed.

Lemma body_split : forall p, half p -> split !"|" (picture_body p) = file_name p :: picture_options p.
Proof.
  intros p H. apply PictureProofs.bars_split. split; [reflexivity|]. split; [|apply half_options; auto].
  pose proof (half_bare p H) as (_ & _ & _ & _ & _ & _ & F & _). intros I. rewrite Forall_forall in F. apply (F _ I). cbn. auto 10.
Qed.

Definition underscore (c : ascii) : ascii := if Ascii.eqb " " c then "_"%char else c.
Lemma underscored : forall s, replace_all !" " !"_" s = map underscore s.
Proof.
  intros s. change !" " with [" "%char]. rewrite replace_all_single. induction s as [|c s IH]; auto. cbn [flat_map map]. rewrite IH. unfold underscore at 2. destruct (Ascii.eqb " " c); auto.
Qed.

Lemma wiki_cons : forall c s, wiki_file (c :: s) = upper_char (underscore c) :: map underscore s.
Proof. intros c s. unfold wiki_file. rewrite underscored. reflexivity. Qed.

Lemma wiki_nonempty : forall p, picture_ok cfg p -> exists c s, wiki_file (file_name p) = c :: s.
Proof. intros p A. destruct (file_first p A) as (c & s & -> & _). rewrite wiki_cons. eauto. Qed.

Lemma upper_not : forall c d, In d !"p|:[]'<>{}$%/\?*" \/ d = nl_char \/ d = """"%char -> upper_char c = d -> c = d /\ d <> "p"%char.
Proof.
  intros c d I <-. destruct c as [[] [] [] [] [] [] [] []]; vm_compute in I |- *; try (split; [reflexivity|discriminate]);
  exfalso; repeat (destruct I as [I|I]; [try discriminate I; repeat (destruct I as [I|I]; [discriminate I|]); try contradiction|]); try discriminate I; try contradiction.
Qed.

Lemma wiki_chars : forall p d, picture_ok cfg p -> In d (!"'[]{}|<>$:%/\?*" ++ dq ++ nl) -> ~ In d (wiki_file (file_name p)).
Proof.
  intros p d A I J. pose proof (file_first p A) as (c & s & E & S). destruct A as (_ & _ & _ & _ & _ & _ & F & _). rewrite Forall_forall in F. rewrite E in *.
  assert (X : forall x, d = (underscore x) -> x = d).
  { intros x H. unfold underscore in H. destruct (Ascii.eqb " " x); [subst d|auto]. cbn in I. intuition discriminate. }
  rewrite wiki_cons in J. destruct J as [J|J].
  - apply upper_not in J as [J _]; [|cbn in I |- *; intuition]. symmetry in J. apply X in J. subst d. apply (F c); [left; auto|exact I].
  - apply in_map_iff in J as (x & J & K). symmetry in J. apply X in J. subst x. apply (F d); [right; auto|exact I].
Qed.

Lemma wiki_px : forall p, picture_ok cfg p -> has_suffix !"px" (!"File:" ++ wiki_file (file_name p)) = false.
Proof.
  intros p A. destruct (has_suffix _ _) eqn:H; auto. exfalso. apply has_suffix_spec in H as (s & H). pose proof (file_first p A) as (c & x & E & _).
  destruct A as (_ & _ & _ & _ & _ & _ & _ & _ & _ & _ & _ & _ & N & _). apply N. rewrite E in *. rewrite wiki_cons in H. clear N E.
  destruct x as [|d x] using rev_ind; [|clear IHx].
  - cbn [map] in H. change (!"File:" ++ [upper_char (underscore c)]) with (!"File" ++ [":"%char; upper_char (underscore c)]) in H.
    apply (f_equal (@rev ascii)) in H. rewrite !rev_app_distr in H. discriminate.
  - rewrite map_app in H. cbn [map] in H. destruct x as [|e x _] using rev_ind.
    + cbn [map app] in H. apply (f_equal (@rev ascii)) in H. rewrite rev_app_distr in H. cbn [rev app] in H. injection H as _ H _. apply upper_not in H as [_ H]; [contradiction|cbn; auto].
    + rewrite map_app in H. cbn [map] in H. exists (c :: x).
      assert (H' : (!"File:" ++ upper_char (underscore c) :: map underscore x) ++ [underscore e; underscore d] = s ++ !"px").
      { rewrite <- H. rewrite <- !app_assoc. reflexivity. }
      clear H. apply (f_equal (@rev ascii)) in H'. rewrite !rev_app_distr in H'. cbn [rev app] in H'. injection H' as H1 H2 _. unfold underscore in H1, H2.
      destruct (Ascii.eqb " " e); [discriminate|]. destruct (Ascii.eqb " " d); [discriminate|]. subst. rewrite <- app_assoc. auto.
Qed.

Lemma escaped : forall p t, half p -> escapeImages cfg (picture_body p) t =
  Ok (join !"|" ((!"File:" ++ wiki_file (file_name p)) :: picture_options p), mkTokenizer (tokenMap t) (tokenCounter t) (images t ++ [!"File:" ++ wiki_file (file_name p)])).
Proof.
  intros p t A. unfold escapeImages. rewrite body_split by auto. cbn [hd tl]. change !":" with [":"%char].
  pose proof (half_bare p A) as (_ & _ & _ & _ & _ & (c & s & E & L) & F & T & _ & _ & _ & _ & _ & U & _). cbn [bare file_name] in *. rewrite split2_none.
  2:{ intros I. rewrite Forall_forall in F. apply (F _ I). cbn. auto 20. }
  cbn iota. cbn [hd]. rewrite T. replace (ignored_media cfg (file_name p)) with false.
  2:{ symmetry. destruct (ignored_media _ _) eqn:G; auto. apply PictureProofs.ignored_spec in G. contradiction. }
  rewrite (replace_all_none !"%20").
  - unfold bindM at 1. assert (Up : upper_first (replace_all !" " !"_" (file_name p)) = Ok (wiki_file (file_name p))).
    { unfold wiki_file. rewrite underscored, E. cbn [map]. reflexivity. }
    rewrite Up. cbn [bind]. unfold bindM, addImage, ret. cbn [bind]. reflexivity.
  - apply index_none. intros a b H. assert (I : In "%"%char (replace_all !" " !"_" (file_name p))) by (rewrite H; apply in_app_iff; right; left; auto).
    rewrite underscored in I. apply in_map_iff in I as (x & X & I). unfold underscore in X. destruct (Ascii.eqb " " x); [discriminate|]. subst x. rewrite Forall_forall in F. apply (F _ I). cbn. auto 20.
Qed.

Variable fuel : nat.
Let rec := tokenizeContent cfg fuel.

Lemma size_facts : forall p w h, picture_ok cfg p -> size p = Some (w, h) ->
  let o := itoa w ++ !"x" ++ itoa h ++ !"px" in HasAnyPrefix o imageNonInlineParameters = false /\ has_suffix !"px" o = true /\ option_size o = (Z.of_nat w, Z.of_nat h).
Proof.
  intros p w h A E o. destruct A as (_ & _ & _ & _ & _ & _ & _ & _ & _ & _ & _ & _ & _ & _ & _ & B & _). destruct (B w h E) as [B1 B2].
  assert (F : HasAnyPrefix o imageNonInlineParameters = false).
  { unfold o. destruct (itoa_first w) as (c & s & -> & D). destruct (digit_cases c D) as (_ & _ & _ & D1 & D2). unfold HasAnyPrefix. cbn [existsb imageNonInlineParameters app].
    rewrite !has_prefix_neq; auto. }
  assert (X : o = (itoa w ++ !"x" ++ itoa h) ++ !"px") by (unfold o; rewrite <- !app_assoc; auto). split; auto. split; [apply has_suffix_spec; eauto|].
  apply PictureProofs.size_spec.
  - intros G. apply PictureProofs.frame_spec in G. congruence.
  - eauto.
  - split; [intros G; apply PictureProofs.frame_spec in G; congruence|]. exists (itoa w ++ !"x" ++ itoa h). split; auto. right. left. exists (itoa w), (itoa h).
    split; auto. split; [apply itoa_letters; cbn; auto 20|]. split; [apply itoa_letters; cbn; auto 20|]. rewrite !number_itoa; auto.
Qed.

Lemma as_large : forall w h, ((50 <=? Z.of_nat h)%Z || (100 <=? Z.of_nat w)%Z) = ((100 <=? w) || (50 <=? h)).
Proof.
  intros w h. rewrite orb_comm. f_equal.
  - destruct (Nat.leb_spec 100 w), (Z.leb_spec 100 (Z.of_nat w)); auto; lia.
  - destruct (Nat.leb_spec 50 h), (Z.leb_spec 50 (Z.of_nat h)); auto; lia.
Qed.

(** The caption *)
Lemma caption_options : forall p o t, half p -> caption o = [] -> ok false t ->
  judge true t (parseOptions rec (caption_option p) o)
    (fun _ r => r = mkImageOptions (isImage o) (hasCaption o) (match caption_text p with Some c => if isImage o then caption_wikitext c else [] | None => [] end) (xSizeInt o) (ySizeInt o)).
Proof.
  intros p [im hc ca x y] t A E O. cbn [caption] in E. subst ca. pose proof (half_caption p) as Cap. unfold caption_option.
  destruct (caption_text p) as [c0|]; [|cbn [parseOptions]; apply judge_ret; auto]. destruct (Cap c0 A eq_refl) as ((W & B & N1 & N2 & _ & Pl) & _). clear Cap. set (c := caption_wikitext c0) in *. cbn [parseOptions].
  replace (HasAnyPrefix c imageNonInlineParameters) with false by (symmetry; destruct (HasAnyPrefix _ _) eqn:G; auto; apply PictureProofs.frame_spec in G; contradiction).
  replace (has_suffix !"px" c) with false by (symmetry; destruct (has_suffix _ _) eqn:G; auto; apply has_suffix_spec in G; contradiction).
  cbn [length Nat.eqb andb isImage hasCaption xSizeInt ySizeInt]. destruct im.
  - eapply judge_bind; [apply (settled_judge true cfg fuel c t); auto; apply settled_single; auto; [intros d I; apply W; cbn in I |- *; intuition|apply Pl|apply W; apply in_app_iff; right; left; auto]|]. cbn beta. intros r t' O' G' ->. apply judge_ret; auto.
  - apply judge_ret; auto.
Qed.

Lemma options_judge : forall p t, half p -> ok false t ->
  judge true t (parseOptions rec (picture_options p) (mkImageOptions false false [] (-1) (-1)))
    (fun _ r => isImage r = as_figure p /\ (xSizeInt r, ySizeInt r) = picture_size p /\ (if hasCaption r then caption r else []) = shown_caption p).
Proof.
  intros p t A O. rewrite options_parts. unfold frame_options, as_figure, shown_caption, picture_size. rewrite <- app_assoc. pose proof (half_bare p A) as Ab.
  assert (Sh : forall c, caption_text p = Some c -> concat (map phrase_html c) = caption_wikitext c) by (intros c E; apply (half_caption p c A E)).
  assert (S1 : forall o, caption o = [] -> judge true t (parseOptions rec (match size p with Some (w, h) => [itoa w ++ !"x" ++ itoa h ++ !"px"] | None => [] end ++ caption_option p) o)
    (fun _ r => let im := isImage o || match size p with Some (w, h) => (100 <=? w) || (50 <=? h) | None => false end in
       r = mkImageOptions im (hasCaption o) (match caption_text p with Some c => if im then caption_wikitext c else [] | None => [] end)
         (match size p with Some (w, h) => Z.of_nat w | None => xSizeInt o end) (match size p with Some (w, h) => Z.of_nat h | None => ySizeInt o end))).
  { intros o E. destruct (size p) as [[w h]|] eqn:Sz.
    - cbn [app parseOptions]. destruct (size_facts (bare p) w h Ab Sz) as (F1 & F2 & F3). cbn zeta in F1, F2, F3. cbn [app] in F1, F2, F3. rewrite F1, F2, F3. rewrite <- orb_assoc, as_large.
      eapply judge_weaken; [apply caption_options; auto|]. cbn beta. intros r t' _ _ ->. reflexivity.
    - cbn [app]. eapply judge_weaken; [apply caption_options; auto|]. cbn beta zeta. intros r t' _ _ ->. rewrite orb_false_r. reflexivity. }
  destruct (thumbnail p); cbn [app orb].
  - cbn [parseOptions]. change (HasAnyPrefix !"thumb" imageNonInlineParameters) with true. cbn iota.
    eapply judge_weaken; [apply S1; reflexivity|]. cbn beta zeta. cbn [caption isImage hasCaption xSizeInt ySizeInt orb]. intros r t' _ _ ->. cbn [caption isImage hasCaption xSizeInt ySizeInt].
    split; auto. split; [destruct (size p) as [[w h]|]; auto|]. destruct (caption_text p); auto. symmetry. apply Sh. auto.
  - eapply judge_weaken; [apply S1; reflexivity|]. cbn beta zeta. cbn [caption isImage hasCaption xSizeInt ySizeInt orb]. intros r t' _ _ ->. cbn [caption isImage hasCaption xSizeInt ySizeInt].
    split; auto. split; [destruct (size p) as [[w h]|]; auto|]. destruct (caption_text p); auto.
Qed.

Lemma token_judge : forall p t, half p -> ok false t ->
  judge true t (image_token cfg rec (join !"|" ((!"File:" ++ wiki_file (file_name p)) :: picture_options p))) (fun t' key => In (key, picture_token p) (tokenMap t')).
Proof.
  intros p t A O. unfold image_token. rewrite (PictureProofs.bars_split _ (!"File:" ++ wiki_file (file_name p)) (picture_options p)).
  2:{ apply PictureProofs.bars_join.
      - intros I. apply in_app_iff in I as [I|I]; [cbn in I; intuition discriminate|]. revert I. apply (wiki_chars (bare p)); [apply half_bare; auto|cbn; auto 20].
      - apply half_options. auto. }
  cbn [hd]. change (!"File:" ++ wiki_file (file_name p)) with (!"File" ++ ":"%char :: wiki_file (file_name p)). change !":" with [":"%char]. rewrite split2_first by (cbn; intuition discriminate).
  eapply judge_bind; [apply (judge_ret _ true t (wiki_file (file_name p)) (fun _ x => x = wiki_file (file_name p))); auto|]. cbn beta. intros x t1 O1 G1 ->.
  set (wanted := fun option => negb (HasAnyPrefix option (lists cfg IgnoredImageParams))).
  assert (Fl : filter wanted (picture_options p) = picture_options p).
  { assert (Ig : Forall (fun o => ~ PictureSpec.ignored_option cfg o) (picture_options p)).
    { pose proof (half_bare p A) as (_ & _ & _ & _ & _ & _ & _ & _ & _ & _ & _ & _ & _ & _ & Ig & _). rewrite bare_options in Ig. rewrite options_parts. apply Forall_app. split; auto. unfold caption_option.
      destruct (caption_text p) as [c|] eqn:E; constructor; auto. apply (half_caption p c A E). }
    induction Ig as [|o l H Ig IH]; auto. cbn [filter]. rewrite IH. replace (wanted o) with true; auto.
    symmetry. unfold wanted. apply negb_true_iff. destruct (HasAnyPrefix _ _) eqn:G; auto. exfalso. apply H. unfold HasAnyPrefix in G. apply existsb_exists in G as (q & I & G).
    apply has_prefix_spec in G as (z & ->). exists q, z. auto. }
  eapply (judge_bind _ _ true t1 _ _ (fun _ r => isImage r = as_figure p /\ (xSizeInt r, ySizeInt r) = picture_size p /\ (if hasCaption r then caption r else []) = shown_caption p)).
  { cbn [filter]. rewrite Fl. destruct (wanted _); [|apply options_judge; auto]. cbn [parseOptions].
    replace (HasAnyPrefix (!"File" ++ ":"%char :: wiki_file (file_name p)) imageNonInlineParameters) with false by reflexivity.
    pose proof (wiki_px (bare p) (half_bare p A)) as Px. cbn [bare file_name] in Px. cbn [app] in Px |- *. rewrite Px. cbn [isImage]. rewrite andb_false_r. apply options_judge; auto. }
  cbn beta. intros o t2 O2 G2 (I1 & I2 & I3). rewrite I3. unfold picture_token. rewrite <- I2. cbn [fst snd]. rewrite I1. destruct (as_figure p).
  - apply (judge_token_in _ true t2 TOKEN_IMAGE _ (fun k => ret k)); auto; [apply nowiki_types|]. intros t3 n O3 G3 J. apply judge_ret; auto.
  - apply (judge_token_in _ true t2 TOKEN_IMAGE_INLINE _ (fun k => ret k)); auto; [apply nowiki_types|]. intros t3 n O3 G3 J. apply judge_ret; auto.
Qed.

Lemma piece_judge : forall p t, half p -> ok false t -> judge true t
  (do! imageContent := rec (picture_body p) in
   do! imageContent := escapeImages cfg imageContent in
   if str_eqb imageContent [] || negb (mem_str (to_lower (hd [] (split2 !":" imageContent))) (lists cfg FilePrefixes)) then ret []
   else image_token cfg rec imageContent)
  (fun t' key => In (key, picture_token p) (tokenMap t')).
Proof.
  intros p t A O. eapply judge_bind; [apply (settled_judge true cfg fuel (picture_body p) t); auto; apply body_settled; auto|]. cbn beta. intros r t1 O1 G1 ->.
  eapply (judge_bind _ _ true t1 _ _ (fun _ r => r = join !"|" ((!"File:" ++ wiki_file (file_name p)) :: picture_options p))).
  { split.
    - intros r t' E. destruct (BlockPassProofs.escapeImages_sound cfg false t1 (picture_body p) O1 ltac:(discriminate) r t' E) as (O' & G' & _). rewrite escaped in E by auto. injection E as <- <-. auto.
    - intros _. rewrite escaped by auto. exact I. }
  cbn beta. intros r t2 O2 G2 ->.
  assert (J : exists z, join !"|" ((!"File:" ++ wiki_file (file_name p)) :: picture_options p) = !"File" ++ ":"%char :: z).
  { destruct (picture_options p); cbn [join]; [exists (wiki_file (file_name p)); reflexivity|]. rewrite <- app_assoc. eexists. reflexivity. }
  pose proof (token_judge p t2 A O2) as T. destruct J as (z & J). rewrite J in *. change !":" with [":"%char]. rewrite split2_first by (cbn; intuition discriminate). cbn [hd].
  replace (mem_str (to_lower !"File") (lists cfg FilePrefixes)) with true; [exact T|]. symmetry. apply mem_str_In. apply (half_bare p A).
Qed.

(** ** The pass *)

Definition half_ok (i : inline) : Prop := match i with LinkTo _ _ => False | Picture p => half p | _ => atom_ok i end.

Definition pictured (t : Tokenizer) (i i' : inline) : Prop :=
  match i with
  | Picture p => exists key, i' = Words key /\ In (key, picture_token p) (tokenMap t)
  | _ => i' = i
  end.

Lemma key_follows : forall t k v, unique t -> In (k, v) (tokenMap t) -> followed "[" other_bracket k.
Proof.
  intros t k v [F _] I. rewrite Forall_forall in F. destruct (F k) as (ty & i & T & -> & _); [apply (in_map fst) in I; exact I|]. apply followed_none. intros J.
  pose proof (atom_chars _ (token_key_atom ty i T)) as A. rewrite Forall_forall in A. specialize (A _ J). discriminate.
Qed.

Lemma body_bracketed : forall s, ~ In "["%char s -> ~ In "]"%char s -> PictureSpec.bracketed s.
Proof.
  induction s as [|c s IH]; intros N1 N2; [constructor|]. apply PictureSpec.bracketed_char; [intros ->; apply N1; left; auto|intros ->; apply N2; left; auto|].
  apply IH; intros I; [apply N1|apply N2]; right; auto.
Qed.

Lemma images_go : forall l n done t, followed "[" other_bracket done -> Forall half_ok l -> ok false t ->
  judge true t (parseImages_go cfg rec n (done ++ line_wikitext l)) (fun t' r => exists l', Forall2 (pictured t') l l' /\ r = done ++ line_wikitext l').
Proof.
  induction l as [|i l IH]; intros n done t F A O.
  - unfold line_wikitext. cbn [map concat]. rewrite app_nil_r. destruct n as [|n]; cbn [parseImages_go]; [apply judge_fuel|]. rewrite PictureProofs.no_start by (apply followed_no_link; auto).
    apply judge_ret; auto. exists []. split; auto. cbn. rewrite app_nil_r. auto.
  - inversion A as [|? ? A1 A2]; subst. rewrite line_cons.
    assert (Simple : (forall t, pictured t i i) -> followed "[" other_bracket (inline_wikitext i) ->
      judge true t (parseImages_go cfg rec n (done ++ inline_wikitext i ++ line_wikitext l)) (fun t' r => exists l', Forall2 (pictured t') (i :: l) l' /\ r = done ++ line_wikitext l')).
    { intros H1 H2. rewrite app_assoc. eapply judge_weaken; [apply IH; auto; apply followed_app; auto|]. cbn beta. intros r t' _ _ (l' & K & ->). exists (i :: l').
      split; [constructor; auto|]. rewrite line_cons, <- app_assoc. auto. }
    destruct i as [s|k|a label|u label|f|p|nn nr].
    + apply Simple; [reflexivity|]. apply followed_none. apply A1. cbn. auto.
    + destruct A1.
    + destruct A1.
    + apply Simple; [reflexivity|]. apply address_followed; auto.
    + apply Simple; [reflexivity|]. apply followed_none. apply formula_chars; auto. cbn. auto.
    + clear Simple. cbn [inline_wikitext half_ok] in *. pose proof (half_bare p A1) as Ab. destruct n as [|n]; cbn [parseImages_go]; [apply judge_fuel|].
      set (before := done ++ !"[[" ++ file_prefix p ++ !":"). set (rest := line_wikitext l).
      assert (Ec : done ++ picture_wikitext p ++ rest = before ++ picture_body p ++ !"]]" ++ rest).
      { rewrite picture_text. unfold before, picture_inside. rewrite <- !app_assoc. auto. }
      assert (Lb : length before = length done + 2 + length (file_prefix p) + 1) by (unfold before; rewrite !app_length; cbn; lia).
      replace (find_link_start (done ++ picture_wikitext p ++ rest)) with (Some (length done, length before)).
      2:{ rewrite Lb, picture_text. symmetry. unfold picture_inside. rewrite <- !app_assoc. apply PictureProofs.start_found; [apply followed_no_link; auto|apply Ab|apply Ab|].
          destruct Ab as (_ & _ & _ & W & _). apply letter_not; [cbn; tauto|exact W]. }
      rewrite Ec. rewrite PictureProofs.close_picture by (apply body_bracketed; apply (half_body_chars p); auto; cbn; tauto).
      replace (sub (before ++ picture_body p ++ !"]]" ++ rest) (length before) (length before + length (picture_body p))) with (picture_body p).
      2:{ unfold sub. rewrite skipn_app, skipn_all, Nat.sub_diag. cbn [app skipn]. replace (length before + length (picture_body p) - length before) with (length (picture_body p)) by lia.
          rewrite firstn_app, firstn_all, Nat.sub_diag. cbn [firstn]. rewrite app_nil_r. auto. }
      replace (firstn (length done) (before ++ picture_body p ++ !"]]" ++ rest)) with done.
      2:{ unfold before. rewrite <- app_assoc, firstn_app, firstn_all, Nat.sub_diag. cbn [firstn]. rewrite app_nil_r. auto. }
      replace (skipn (length before + length (picture_body p) + 2) (before ++ picture_body p ++ !"]]" ++ rest)) with rest.
      2:{ rewrite app_assoc. rewrite skipn_app. rewrite app_length. rewrite skipn_all2 by (rewrite app_length; lia).
          replace (length before + length (picture_body p) + 2 - (length before + length (picture_body p))) with 2 by lia. auto. }
      replace (length (before ++ picture_body p ++ !"]]" ++ rest) <? length before + length (picture_body p) + 2) with false.
      2:{ symmetry. apply Nat.ltb_ge. rewrite !app_length. cbn [length]. lia. }
      pose proof (judge_bind _ _ true t _ (fun token => parseImages_go cfg rec n (done ++ token ++ rest)) _
        (fun t' r => exists l', Forall2 (pictured t') (Picture p :: l) l' /\ r = done ++ line_wikitext l') (piece_judge p t A1 O)) as X.
      assert (Y : forall m m' Q, (forall s : Tokenizer, (m s : res (str * Tokenizer)) = m' s) -> judge true t m' Q -> judge true t m Q).
      { clear. intros m m' Q E [H1 H2]. unfold judge, holds. rewrite E. split; auto. }
      eapply Y; [|apply X].
      * intros s. unfold bindM. destruct (rec (picture_body p) s) as [[inner t1]| | |]; auto. cbn [bind]. destruct (escapeImages cfg inner t1) as [[esc t2]| | |]; auto.
      * clear X Y. cbn beta. intros key t1 O1 G1 I. rewrite app_assoc. eapply judge_weaken; [apply IH; auto; apply followed_app; auto; eapply key_follows; eauto; apply O1|].
        cbn beta. intros r t' O' G' (l' & K & ->). exists (Words key :: l'). split; [|rewrite line_cons, <- app_assoc; auto]. constructor; auto.
        exists key. split; auto. eapply keeps_In; [apply grows_keeps; eauto|auto].
    + destruct A1.
Qed.

Lemma images_pass : forall l t, Forall half_ok l -> ok false t ->
  judge true t (parseImages cfg rec (line_wikitext l)) (fun t' r => exists l', Forall2 (pictured t') l l' /\ r = line_wikitext l').
Proof. intros l t A O. unfold parseImages. apply (images_go l _ []); auto. apply followed_none. intros []. Qed.

Lemma pictured_mono : forall t t' i i', keeps t t' -> pictured t i i' -> pictured t' i i'.
Proof. intros t t' [s|k|a l|u l|f|p|nn nr] i' K; cbn [pictured]; auto. intros (key & E & I). exists key. split; auto. eapply keeps_In; eauto. Qed.
End Pictures.
