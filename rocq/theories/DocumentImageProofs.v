(** * The HTML of pictures in a document *)

From Coq Require Import Ascii String.
From Coq Require Import List Arith NArith ZArith Bool Lia.
From Verif Require Import GoStr GoStrFacts TextFacts UtilModel UtilSpec UtilProofs FormattingSpec FormattingProofs ConfigModel TokenModel HtmlModel ImageFileProofs DocumentSpec DocumentLineProofs DocumentPictureProofs.
Import ListNotations.
Local Open Scope list_scope.

Lemma enc_same : forall c, ~ In c (!"%<>:/\|?*" ++ dq) -> enc c = [c].
Proof. intros [[] [] [] [] [] [] [] []] N; try reflexivity; exfalso; apply N; vm_compute; auto 20. Qed.

Lemma sanitize_same : forall n, (forall c, In c n -> ~ In c (!"%<>:/\|?*" ++ dq)) -> SanitizeFilename n = n.
Proof.
  intros n. rewrite sanitize_enc. induction n as [|c n IH]; intros H; [reflexivity|]. cbn [flat_map]. rewrite enc_same by (apply H; left; auto). cbn [app]. f_equal. apply IH. intros d D. apply H. right. auto.
Qed.

Lemma extension_is : forall x s, Forall small x -> str_eqb (path_ext s) ("."%char :: x) = has_suffix ("."%char :: x) s.
Proof.
  intros x s S. destruct (has_suffix _ s) eqn:E.
  - apply str_eqb_eq. apply path_ext_suffix; [apply clean_all; auto|]. apply has_suffix_spec. auto.
  - destruct (str_eqb (path_ext s) _) eqn:F; auto. apply str_eqb_eq in F. apply path_ext_suffix in F; [|apply clean_all; auto]. apply has_suffix_spec in F. congruence.
Qed.

Section Pictures.
Context {cfg : configuration}.

Lemma wiki_not : forall p d, picture_ok cfg p -> file_name p <> d -> (d = !"." \/ d = !"..") -> wiki_file (file_name p) <> d.
Proof.
  intros p d A N D E. destruct (file_first p A) as (c & s & F & _). rewrite F in N, E. rewrite wiki_cons in E. assert (X : forall c, upper_char (underscore c) = "."%char -> c = "."%char) by (intros [[] [] [] [] [] [] [] []]; vm_compute; congruence).
  assert (Y : forall c, underscore c = "."%char -> c = "."%char) by (intros [[] [] [] [] [] [] [] []]; vm_compute; congruence).
  destruct D as [->| ->]; (injection E as E1 E2; apply X in E1; subst c; apply N).
  - destruct s; [reflexivity|discriminate].
  - destruct s as [|e [|f s]]; try discriminate. cbn [map] in E2. injection E2 as E2. apply Y in E2. subst. reflexivity.
Qed.

Lemma picture_path : forall p, picture_ok cfg p ->
  filenameToImagePath cfg (wiki_file (file_name p)) = !"images/" ++ wiki_file (file_name p) ++ if made_to_png cfg (wiki_file (file_name p)) then !".png" else [].
Proof.
  intros p A. pose proof (wiki_nonempty p A) as (c & s & E). pose proof (wiki_chars p) as C. assert (N1 := wiki_not p !"." A). assert (N2 := wiki_not p !".." A).
  pose proof A as (_ & _ & _ & _ & _ & _ & _ & _ & _ & A10 & A11 & _). specialize (N1 A10 ltac:(auto)). specialize (N2 A11 ltac:(auto)).
  set (n := wiki_file (file_name p)) in *. assert (Sn : SanitizeFilename n = n).
  { apply sanitize_same. intros d D I. apply (C d A); auto. vm_compute in I |- *. intuition. }
  unfold filenameToImagePath, made_to_png. rewrite GetRelativeFilePath_eq by (first [assumption|apply cache_folders_entry; cbn; tauto|rewrite E; discriminate]). rewrite Sn.
  assert (X : path_ext (to_lower (!"images" ++ "/"%char :: n)) = path_ext (to_lower n)).
  { rewrite lower_app. change (to_lower ("/"%char :: n)) with ("/"%char :: to_lower n). apply path_ext_last. intros H. apply in_map_iff in H as (d & L & H). apply lower_slash in L. subst d. apply (C "/"%char A); auto. vm_compute. auto 20. }
  rewrite X. clear X. cbn [existsb fst snd].
  pose proof (extension_is !"pdf" (to_lower n) (small_all !"pdf" eq_refl)) as P1. pose proof (extension_is !"svg" (to_lower n) (small_all !"svg" eq_refl)) as P2. pose proof (extension_is !"webp" (to_lower n) (small_all !"webp" eq_refl)) as P3.
  change ("."%char :: !"pdf") with !".pdf" in P1. change ("."%char :: !"svg") with !".svg" in P2. change ("."%char :: !"webp") with !".webp" in P3. rewrite P1, P2, P3.
  change (!"." ++ !"pdf") with !".pdf". change (!"." ++ !"svg") with !".svg". change (!"." ++ !"webp") with !".webp".
  rewrite !(andb_comm (negb _)). change (!"images" ++ "/"%char :: n) with (!"images/" ++ n).
  destruct (has_suffix !".pdf" _ && _); cbn [orb]; [rewrite <- app_assoc; auto|].
  destruct (has_suffix !".svg" _ && _); cbn [orb]; [rewrite <- app_assoc; auto|].
  destruct (has_suffix !".webp" _ && _); cbn [orb]; [rewrite <- app_assoc; auto|]. rewrite app_nil_r. auto.
Qed.

Lemma itoaZ_nat : forall n, itoaZ (Z.of_nat n) = itoa n.
Proof. intros n. unfold itoaZ. destruct (Z.of_nat n <? 0)%Z eqn:E; [apply Z.ltb_lt in E; lia|]. rewrite Nat2Z.id. auto. Qed.

Lemma size_is : forall p, expandSizeTemplate (fst (picture_size p)) (snd (picture_size p)) =
  match size p with
  | Some (width, height) => !"style=" ++ dq ++ !"vertical-align: middle; width: " ++ itoa width ++ !"px; height: " ++ itoa height ++ !"px;" ++ dq
  | None => []
  end.
Proof.
  intros p. unfold picture_size. destruct (size p) as [[w h]|]; [|reflexivity]. cbn [fst snd]. unfold expandSizeTemplate.
  assert (E : forall n, (Z.of_nat n =? -1)%Z = false) by (intros n; apply Z.eqb_neq; lia). rewrite !E, !itoaZ_nat. cbn [negb orb]. unfold quoted. cbn [join]. rewrite <- !app_assoc. reflexivity.
Qed.

Lemma picture_html_is : forall p, picture_ok cfg p -> picture_html cfg p =
  if as_figure p then IMAGE_TEMPLATE (escapePathComponents (filenameToImagePath cfg (wiki_file (file_name p)))) (expandSizeTemplate (fst (picture_size p)) (snd (picture_size p))) (shown_caption p)
  else IMAGE_INLINE_TEMPLATE (escapePathComponents (filenameToImagePath cfg (wiki_file (file_name p)))) (expandSizeTemplate (fst (picture_size p)) (snd (picture_size p))).
Proof.
  intros p A. rewrite picture_path by auto. rewrite size_is. unfold picture_html. cbv zeta. generalize (escapePathComponents (!"images/" ++ wiki_file (file_name p) ++ (if made_to_png cfg (wiki_file (file_name p)) then !".png" else []))). intros file.
  destruct (as_figure p); unfold IMAGE_TEMPLATE, IMAGE_INLINE_TEMPLATE, division, quoted; rewrite <- !app_assoc; reflexivity.
Qed.

Lemma caption_words : forall p, picture_ok cfg p -> words (shown_caption p).
Proof.
  assert (Z : words []) by (split; [apply Forall_nil|apply plain_without; intros []]).
  intros p A. unfold shown_caption. destruct (caption_text p) as [c|] eqn:E; [|exact Z]. destruct (thumbnail p); [|exact Z]. destruct A as (_ & _ & _ & _ & _ & _ & _ & _ & _ & _ & _ & _ & _ & _ & _ & _ & C). destruct (C c E) as [F _]. clear - F Z. induction F as [|x c A F IH]; cbn [map concat]; [exact Z|]. assert (Ap : forall s t, words s -> words t -> words (s ++ t)) by (intros s t [S1 S2] [T1 T2]; split; [apply Forall_app; auto|apply plain_app; auto]). apply Ap; auto. destruct x as [s|a label]; cbn [phrase_ok phrase_html] in *; [exact A|apply A].
Qed.
End Pictures.
