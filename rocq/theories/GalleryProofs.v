(** * Proofs about galleries and image maps *)

From Coq Require Import Ascii String.
From Coq Require Import List Arith ZArith Bool Lia.
From Verif Require Import GoStr GoStrFacts TextFacts UtilModel ConfigModel TokenModel HeadingModel ImageModel.
From Verif Require Import PassSpec HeadingProofs LinkProofs BlockPassProofs PictureSpec PictureProofs GallerySpec.
Import ListNotations.
Local Open Scope list_scope.

(** ** Tags *)

Lemma lower_app : forall a b, to_lower (a ++ b) = to_lower a ++ to_lower b.
Proof. intros. apply map_app. Qed.

Lemma lower_split : forall s a b, to_lower s = a ++ b -> exists x y, s = x ++ y /\ to_lower x = a /\ to_lower y = b.
Proof.
  intros s a. revert s. induction a as [|c a IH]; intros s b E; [exists [], s; auto|]. destruct s as [|d s]; [discriminate|]. injection E as <- E.
  destruct (IH s b E) as (x & y & -> & <- & <-). exists (d :: x), y. auto.
Qed.

Lemma prefix_words : forall tag line, to_lower tag = tag -> (HasPrefixIgnoreCase line tag = true <-> exists word rest, line = word ++ rest /\ to_lower word = tag).
Proof.
  intros tag line L. unfold HasPrefixIgnoreCase. rewrite L, has_prefix_spec. split.
  - intros (r & E). destruct (lower_split _ _ _ E) as (x & y & -> & X & _). eauto.
  - intros (w & r & -> & <-). rewrite lower_app. eauto.
Qed.

Lemma lower_length : forall s, length (to_lower s) = length s.
Proof. intros. apply map_length. Qed.

Lemma tag_end_spec : forall s i, tag_end s = Some i <-> exists a b, s = a ++ ">"%char :: b /\ length a = i /\ no_char ">" a /\ no_char nl_char a.
Proof.
  induction s as [|c s IH]; intros i; cbn [tag_end].
  - split; [discriminate|]. intros (a & b & E & _). destruct a; discriminate.
  - destruct (Ascii.eqb_spec c ">") as [->|N].
    + split.
      * intros E. injection E as <-. exists [], s. repeat split; auto; intros [].
      * intros (a & b & E & <- & N & _). destruct a as [|x a]; auto. injection E as <- _. exfalso. apply N. left. auto.
    + destruct (Ascii.eqb_spec c nl_char) as [->|M].
      * split; [discriminate|]. intros (a & b & E & <- & _ & M). destruct a as [|x a]; [injection E as E _; discriminate E|]. injection E as <- _. exfalso. apply M. left. auto.
      * split.
        -- intros E. destruct (tag_end s) as [j|]; [|discriminate]. injection E as <-. destruct (proj1 (IH j) eq_refl) as (a & b & -> & L & A & B).
           exists (c :: a), b. split; auto. split; [cbn; congruence|]. split; intros [K|K]; auto.
        -- intros (a & b & E & <- & A & B). destruct a as [|x a]; [injection E as E _; contradiction|]. injection E as <- E. cbn [length].
           rewrite (proj2 (IH (length a))); auto. exists a, b. split; auto. split; auto. split; intros K; [apply A|apply B]; right; auto.
Qed.

Lemma start_tag_spec : forall tag line rest, to_lower tag = tag -> (remove_start_tag tag line = Some rest <-> start_tag tag line rest).
Proof.
  intros tag line rest L. unfold remove_start_tag. split.
  - intros E. destruct (HasPrefixIgnoreCase line tag) eqn:P; [|discriminate]. apply prefix_words in P as (w & r & -> & W); auto.
    assert (Lw : length tag = length w) by (rewrite <- W; apply lower_length). rewrite Lw in E. rewrite skipn_app, skipn_all, Nat.sub_diag in E. cbn [app skipn] in E.
    destruct (tag_end r) as [i|] eqn:T; [|discriminate]. apply tag_end_spec in T as (a & b & -> & <- & A & B). injection E as <-.
    exists w, a. split; [|auto]. f_equal. f_equal. cbn [app]. f_equal.
    replace (w ++ a ++ ">"%char :: b) with ((w ++ a ++ [">"%char]) ++ b) by (rewrite <- !app_assoc; auto).
    rewrite skipn_app, skipn_all2 by (rewrite !app_length; cbn; lia).
    replace (length w + length a + 1 - length (w ++ a ++ [">"%char])) with 0 by (rewrite !app_length; cbn; lia). reflexivity.
  - intros (w & a & -> & W & A & B). rewrite (proj2 (prefix_words tag _ L)) by eauto.
    assert (Lw : length tag = length w) by (rewrite <- W; apply lower_length). rewrite Lw. rewrite skipn_app, skipn_all, Nat.sub_diag. cbn [app skipn].
    rewrite (proj2 (tag_end_spec (a ++ ">"%char :: rest) (length a))) by eauto 6. cbn [option_map]. f_equal.
    replace (w ++ a ++ ">"%char :: rest) with ((w ++ a ++ [">"%char]) ++ rest) by (rewrite <- !app_assoc; auto).
    rewrite skipn_app, skipn_all2 by (rewrite !app_length; cbn; lia).
    replace (length w + length a + 1 - length (w ++ a ++ [">"%char])) with 0 by (rewrite !app_length; cbn; lia). reflexivity.
Qed.

(** Removing the closing tag *)
Lemma remove_tag_none : forall s, no_closing_tag s -> remove_ignore_case !"</gallery>" s 0 = s.
Proof.
  induction s as [|c s IH]; intros N; auto. cbn [remove_ignore_case]. destruct (HasPrefixIgnoreCase (c :: s) !"</gallery>") eqn:H.
  - exfalso. unfold HasPrefixIgnoreCase in H. apply has_prefix_spec in H as (r & H). apply (proj1 (contains_false _ _) N [] r). exact H.
  - f_equal. apply IH. apply (contains_app_false _ (to_lower [c]) (to_lower s)). exact N.
Qed.

Lemma remove_tag : forall before word after, to_lower word = !"</gallery>" -> no_closing_tag before -> no_closing_tag after ->
  remove_ignore_case !"</gallery>" (before ++ word ++ after) 0 = before ++ after.
Proof.
  intros before word after W B A. induction before as [|c before IH].
  - cbn [app]. assert (H : HasPrefixIgnoreCase (word ++ after) !"</gallery>" = true) by (apply prefix_words; eauto).
    assert (Lw : length word = 10) by (rewrite <- lower_length, W; reflexivity). destruct word as [|d word]; [discriminate|]. cbn [app] in H |- *. cbn [remove_ignore_case]. rewrite H.
    rewrite remove_skip. injection Lw as Lw. cbn [pred length]. replace 9 with (length word) by auto.
    rewrite skipn_app, skipn_all, Nat.sub_diag. cbn [app skipn]. apply remove_tag_none. auto.
  - cbn [app remove_ignore_case]. destruct (HasPrefixIgnoreCase (c :: before ++ word ++ after) !"</gallery>") eqn:H.
    + exfalso. unfold HasPrefixIgnoreCase in H. apply has_prefix_spec in H as (r & H).
      change (c :: before ++ word ++ after) with ((c :: before) ++ word ++ after) in H. rewrite !lower_app, W in H. change (to_lower !"</gallery>") with !"</gallery>" in H.
      destruct (app_app_cases _ _ _ _ H) as [(z & Z & K)|(z & Z & K)].
      * destruct z as [|x z].
        -- rewrite app_nil_r in Z. apply (proj1 (contains_false _ _) B [] []). rewrite <- Z. reflexivity.
        -- cbn in K. injection K as <- _. cbn [to_lower map app] in Z. injection Z as _ Z.
           assert (I : In "<"%char !"/gallery>") by (rewrite Z; apply in_app_iff; right; left; auto). cbn in I. intuition discriminate.
      * apply (proj1 (contains_false _ _) B [] z). exact Z.
    + f_equal. apply IH. apply (contains_app_false _ (to_lower [c]) (to_lower before)). exact B.
Qed.

Section Config.
Variable cfg : configuration.

(** ** The image *)

Lemma escaped_value : forall s t r t', escapeImages cfg s t = Ok (r, t') -> escaped cfg s r.
Proof. intros s t r t' E. destruct (escape_value cfg s t r t' E) as (first & others & media & file & B & F & _ & _ & D). exists first, others, media, file. auto. Qed.

Lemma gallery_value : forall image t r t', image <> [] -> galleryLine cfg image t = Ok (r, t') ->
  exists framed_image wikitext, with_frame image framed_image /\ escaped cfg framed_image wikitext /\
    ((wikitext = [] /\ r = []) \/ (wikitext <> [] /\ r = !"[[" ++ wikitext ++ !"]]")).
Proof.
  intros image t r t' N E. unfold galleryLine in E.
  match type of E with context [escapeImages cfg ?x] => set (image' := x) in E end. unfold bindM in E. destruct (escapeImages cfg image' t) as [[w t1]| | |] eqn:X; try discriminate.
  exists image', w. split; [|split; [eapply escaped_value; eauto|]].
  - unfold image', hasNonInlineParameter. cbn [existsb imageNonInlineParameters]. rewrite orb_false_r.
    destruct (contains !"mini" (to_lower image) || contains !"thumb" (to_lower image)) eqn:H.
    + left. split; auto. apply orb_true_iff in H. exact H.
    + right. apply orb_false_iff in H as [H1 H2]. split; [intros [K|K]; congruence|]. destruct (split_bars image) as (first & others & B & ->).
      exists first, others. split; auto. destruct B as (_ & B1 & B2). apply bars_join; auto. constructor; auto. intros [K|[K|[K|[K|[]]]]]; discriminate K.
  - cbn in E. destruct w; injection E as <- _; [left; auto|right; split; [discriminate|auto]].
Qed.

(** ** Galleries *)

Lemma closing_spec : forall line, HasPrefixIgnoreCase (trim_space line) !"</gallery>" = true <-> exists rest, closing_line line rest.
Proof.
  intros line. rewrite prefix_words by reflexivity. split; intros (a & b); [destruct b as (rest & E & W); exists rest, a; auto|].
  destruct b as (w & E & W). eauto.
Qed.

Lemma galleries_go : forall lines t r t',
  (parseGalleries_go cfg lines false t = Ok (r, t') -> galleries cfg lines r) /\
  (parseGalleries_go cfg lines true t = Ok (r, t') ->
    (exists results, Forall2 (gallery_line cfg) lines results /\ r = concat results) \/
    (exists more results last kept rest result, lines = more ++ last :: rest /\ Forall2 (gallery_line cfg) more results /\ closed last kept /\
       galleries cfg rest result /\ r = concat results ++ kept ++ result)).
Proof.
  induction lines as [|line lines IH]; intros t r t'.
  { split; intros E; injection E as <- _; [constructor|]. left. exists []. split; [constructor|auto]. }
  destruct (HasPrefixIgnoreCase (trim_space line) !"</gallery>") eqn:C.
  - assert (K : forall b, parseGalleries_go cfg (line :: lines) b t = Ok (r, t') -> exists kept result, closed line kept /\ galleries cfg lines result /\ r = kept ++ result).
    { intros b E. cbn [parseGalleries_go] in E. rewrite C in E. apply closing_spec in C as (rest & w & T & W).
      destruct (EqualsIgnoreCase (trim_space line) !"</gallery>") eqn:Q.
      - apply IH in E. exists [], r. split; auto. exists rest. split; [exists w; auto|]. left. split; auto. unfold EqualsIgnoreCase in Q. apply str_eqb_eq in Q.
        rewrite T, lower_app, W in Q. change (to_lower !"</gallery>") with (!"</gallery>" ++ []) in Q. apply app_inv_head in Q. destruct rest; [auto|discriminate].
      - unfold bindM in E. destruct (parseGalleries_go cfg lines false t) as [[r1 t1]| | |] eqn:G; try discriminate. cbn in E. injection E as <- _.
        apply IH in G. exists [remove_ignore_case !"</gallery>" line 0], r1. split; [|split; auto]. exists rest. split; [exists w; auto|]. right. split.
        + intros ->. rewrite app_nil_r in T. unfold EqualsIgnoreCase in Q. rewrite T, W in Q. apply str_eqb_neq in Q. apply Q. reflexivity.
        + eexists. split; [reflexivity|]. intros before word after -> W' B A. apply remove_tag; auto. }
    split; intros E; destruct (K _ E) as (kept & result & Cl & G & ->).
    + apply galleries_closing; auto.
    + right. exists [], [], line, kept, lines, result. split; auto.
  - assert (NC : forall rest, ~ closing_line line rest) by (intros rest X; rewrite (proj2 (closing_spec line)) in C; [discriminate|eauto]).
    assert (K : forall image, (opening_line line image \/ (image = trim_space line /\ forall rest, ~ opening_line line rest)) ->
      (match image with
       | [] => parseGalleries_go cfg lines true
       | _ => do! line := galleryLine cfg image in do! r := parseGalleries_go cfg lines true in ret (line :: r)
       end) t = Ok (r, t') -> exists result r1 t1, gallery_line cfg line result /\ parseGalleries_go cfg lines true t1 = Ok (r1, t') /\ r = result ++ r1).
    { intros image Im E. destruct image as [|c image].
      - exists [], r, t. split; auto. split; auto. exists []. auto.
      - unfold bindM in E. destruct (galleryLine cfg (c :: image) t) as [[l t1]| | |] eqn:G; try discriminate. cbn [bind] in E.
        destruct (parseGalleries_go cfg lines true t1) as [[r1 t2]| | |] eqn:R; try discriminate. cbn in E. injection E as <- <-.
        exists [l], r1, t1. split; auto. split; auto. exists (c :: image). split; auto. right. split; [discriminate|].
        apply gallery_value in G as (f & w & F & W & D); [|discriminate]. exists f, w. split; auto. split; auto.
        destruct D as [(-> & ->)|(N & ->)]; [left|right]; auto. }
    assert (D : forall image b, remove_start_tag !"<gallery" (trim_space line) = Some image ->
      parseGalleries_go cfg (line :: lines) b t = Ok (r, t') -> opening_line line image /\
      exists result r1 t1, gallery_line cfg line result /\ parseGalleries_go cfg lines true t1 = Ok (r1, t') /\ r = result ++ r1).
    { intros image b S E. cbn [parseGalleries_go] in E. rewrite C, S in E. apply start_tag_spec in S; [|reflexivity]. split; auto. apply (K image); auto. }
    destruct (remove_start_tag !"<gallery" (trim_space line)) as [image|] eqn:S.
    + split; intros E; destruct (D image _ eq_refl E) as (Op & result & r1 & t1 & L & G & ->).
      * apply IH in G as [(results & F & ->)|(more & results & last & kept & rest & result' & -> & F & Cl & G & ->)].
        -- apply (galleries_unclosed cfg line image lines (result :: results)); auto.
        -- replace (result ++ concat results ++ kept ++ result') with (concat (result :: results) ++ kept ++ result') by (cbn [concat]; rewrite <- app_assoc; auto).
           apply (galleries_gallery cfg line image); auto.
      * apply IH in G as [(results & F & ->)|(more & results & last & kept & rest & result' & -> & F & Cl & G & ->)].
        -- left. exists (result :: results). split; auto.
        -- right. exists (line :: more), (result :: results), last, kept, rest, result'. split; auto. split; auto. split; auto. split; auto. cbn [concat]. rewrite <- app_assoc. auto.
    + assert (NO : forall rest, ~ opening_line line rest) by (intros rest X; apply start_tag_spec in X; [congruence|reflexivity]).
      split; intros E; cbn [parseGalleries_go] in E; rewrite C, S in E.
      * unfold bindM in E. destruct (parseGalleries_go cfg lines false t) as [[r1 t1]| | |] eqn:G; try discriminate. cbn in E. injection E as <- _.
        apply IH in G. apply galleries_text; auto.
      * destruct (K (trim_space line) (or_intror (conj eq_refl NO)) E) as (result & r1 & t1 & L & G & ->).
        apply IH in G as [(results & F & ->)|(more & results & last & kept & rest & result' & -> & F & Cl & G & ->)].
        -- left. exists (result :: results). split; auto.
        -- right. exists (line :: more), (result :: results), last, kept, rest, result'. split; auto. split; auto. split; auto. split; auto. cbn [concat]. rewrite <- app_assoc. auto.
Qed.

(** ** Image maps *)

Lemma map_end_spec : forall line, EqualsIgnoreCase line !"</imagemap>" = true <-> map_end line.
Proof. intros line. unfold EqualsIgnoreCase. rewrite str_eqb_eq. reflexivity. Qed.

Lemma image_maps_go : forall n lines t r t', length lines <= n ->
  (parseImageMaps_go cfg lines false t = Ok (r, t') -> image_maps cfg lines r) /\
  (parseImageMaps_go cfg lines true t = Ok (r, t') ->
    (Forall (fun line => ~ map_end line) lines /\ r = []) \/
    (exists areas last rest, lines = areas ++ last :: rest /\ Forall (fun line => ~ map_end line) areas /\ map_end last /\ image_maps cfg rest r)).
Proof.
  induction n as [|n IH]; intros [|line lines] t r t' L; try (cbn in L; lia); try (split; intros E; injection E as <- _; [constructor|left; auto]).
  cbn [length] in L. split; intros E.
  - cbn [parseImageMaps_go orb andb] in E. destruct (EqualsIgnoreCase line !"</imagemap>") eqn:Q.
    + apply IH in E; [|lia]. apply map_end_spec in Q. apply maps_closing; auto.
    + assert (NE : ~ map_end line) by (rewrite <- map_end_spec; congruence).
      assert (K : forall start image lines' w t1 r1 t2, length lines' <= n -> line :: lines = start ++ lines' -> map_start start image -> escapeImages cfg image t = Ok (w, t1) ->
        parseImageMaps_go cfg lines' true t1 = Ok (r1, t2) -> image_maps cfg (line :: lines) ((!"[[" ++ w ++ !"]]") :: r1)).
      { intros start image lines' w t1 r1 t2 L' El St Es G. apply escaped_value in Es. rewrite El. apply IH in G as [(F & ->)|(areas & last & rest & -> & F & Le & G)]; auto.
        - apply (maps_unclosed cfg start image); auto.
        - apply (maps_map cfg start image); auto. }
      destruct (remove_start_tag !"<imagemap" line) as [rest|] eqn:S.
      * apply start_tag_spec in S; [|reflexivity]. destruct (trim_space rest) as [|c x] eqn:T.
        -- destruct lines as [|next lines]; [discriminate|]. unfold bindM in E. destruct (escapeImages cfg next t) as [[w t1]| | |] eqn:Es; try discriminate. cbn [bind] in E.
           destruct (parseImageMaps_go cfg lines true t1) as [[r1 t2]| | |] eqn:G; try discriminate. cbn in E. injection E as <- _. cbn [length] in L.
           apply (K [line; next] next lines w t1 r1 t2); auto; [lia|]. apply (map_next_line line rest); auto.
        -- unfold bindM in E. destruct (escapeImages cfg (c :: x) t) as [[w t1]| | |] eqn:Es; try discriminate. cbn [bind] in E.
           destruct (parseImageMaps_go cfg lines true t1) as [[r1 t2]| | |] eqn:G; try discriminate. cbn in E. injection E as <- _.
           apply (K [line] (c :: x) lines w t1 r1 t2); auto; [lia|]. rewrite <- T. apply (map_same_line line rest); auto. congruence.
      * unfold bindM in E. destruct (parseImageMaps_go cfg lines false t) as [[r1 t1]| | |] eqn:G; try discriminate. cbn in E. injection E as <- _.
        apply IH in G; [|lia]. apply maps_text; auto. intros rest X. apply start_tag_spec in X; [congruence|reflexivity].
  - cbn [parseImageMaps_go orb andb] in E. destruct (EqualsIgnoreCase line !"</imagemap>") eqn:Q; cbn [negb] in E.
    + apply map_end_spec in Q. apply IH in E; [|lia]. right. exists [], line, lines. auto.
    + assert (NE : ~ map_end line) by (rewrite <- map_end_spec; congruence). apply IH in E as [(F & ->)|(areas & last & rest & -> & F & Le & G)]; [| |lia].
      * left. auto.
      * right. exists (line :: areas), last, rest. auto.
Qed.
End Config.
