(** * Proofs about the nesting of elements in the HTML *)

From Coq Require Import Ascii String.
From Coq Require Import List Arith NArith ZArith Bool Lia.
From Verif Require Import GoStr GoStrFacts TextFacts UtilModel ConfigModel TokenModel TokenSpec TokenProofs PassSpec FormattingModel ExpandModel ExpandSpec ExpandProofs HtmlModel HtmlSpec HtmlProofs HtmlTokenProofs.
Import ListNotations.
Local Open Scope list_scope.

(** ** Texts without angle brackets *)

Lemma na_nil : no_angles [].
Proof. split; intros []. Qed.
Lemma na_app : forall a b, no_angles a -> no_angles b -> no_angles (a ++ b).
Proof. intros a b [A1 A2] [B1 B2]. split; intros I; apply in_app_or in I as [I|I]; auto. Qed.
Lemma na_all : forall s, Forall (fun c => c <> "<"%char /\ c <> ">"%char) s -> no_angles s.
Proof. intros s F. rewrite Forall_forall in F. split; intros I; apply F in I; tauto. Qed.
Lemma na_check : forall s, forallb (fun c => negb (Ascii.eqb c "<" || Ascii.eqb c ">")) s = true -> no_angles s.
Proof.
  intros s H. apply na_all, Forall_forall. intros c I. rewrite forallb_forall in H. apply H, negb_true_iff, orb_false_iff in I as [X Y].
  apply Ascii.eqb_neq in X, Y. auto.
Qed.
Lemma na_join : forall sep l, no_angles sep -> Forall no_angles l -> no_angles (join sep l).
Proof.
  intros sep l H F. induction F as [|x l X F IH]; [apply na_nil|]. destruct l as [|y l]; auto.
  change (join sep (x :: y :: l)) with (x ++ sep ++ join sep (y :: l)). repeat apply na_app; auto.
Qed.
Lemma na_digits : forall n, no_angles (itoa n).
Proof. intros n. apply na_all. eapply Forall_impl; [|apply itoa_digits]. intros c D. split; intros ->; discriminate. Qed.
Lemma na_itoaZ : forall z, no_angles (itoaZ z).
Proof. intros z. unfold itoaZ. destruct (z <? 0)%Z; [apply na_app; [apply na_check; reflexivity|]|]; apply na_digits. Qed.

Ltac na := repeat first [apply na_check; reflexivity | assumption | apply na_digits | apply na_itoaZ | apply na_app | apply na_join].

Lemma hex_angle : forall n, (n < 16)%N -> hex_digit n <> "<"%char /\ hex_digit n <> ">"%char.
Proof.
  intros n H. assert (E : In n (map N.of_nat (seq 0 16))).
  { rewrite <- (N2Nat.id n). apply in_map. apply in_seq. lia. }
  cbn [seq map N.of_nat Pos.of_succ_nat] in E. repeat (destruct E as [<-|E]; [split; vm_compute; discriminate|]). destruct E.
Qed.

Lemma na_escape : forall s, no_angles (query_escape s).
Proof.
  intros s. unfold query_escape. induction s as [|c s IH]; [apply na_nil|]. cbn [flat_map]. apply na_app; auto. unfold escape_char.
  destruct (unreserved c) eqn:U.
  - apply na_all. constructor; [|constructor]. split; intros ->; discriminate U.
  - destruct (Ascii.eqb c " "); [apply na_check; reflexivity|]. pose proof (N_ascii_bounded c) as B. apply na_all. constructor; [split; discriminate|].
    constructor; [apply hex_angle; apply N.div_lt_upper_bound; lia|]. constructor; [apply hex_angle; apply N.mod_lt; lia|constructor].
Qed.

Lemma na_path : forall s, no_angles (escapePathComponents s).
Proof. intros s. unfold escapePathComponents. apply na_join; [apply na_check; reflexivity|]. apply Forall_forall. intros x I. apply in_map_iff in I as (y & <- & _). apply na_escape. Qed.

Lemma na_quoted : forall s, no_angles s -> no_angles (quoted s).
Proof. intros s H. unfold quoted. na. Qed.

Lemma na_size : forall x y, no_angles (expandSizeTemplate x y).
Proof.
  intros x y. unfold expandSizeTemplate. destruct (_ || _); [|apply na_nil]. apply na_app; [na|]. apply na_quoted. apply na_join; [na|].
  repeat constructor; try na; destruct (negb _); na.
Qed.

Lemma attributes_none : attributes [].
Proof. split; [apply na_nil|auto]. Qed.
Lemma attributes_some : forall a, no_angles a -> attributes (!" " ++ a).
Proof. intros a H. split; [na|]. right. exists a. reflexivity. Qed.

(** ** Nesting *)

Lemma nested_app : forall p a b, nested p a -> nested p b -> nested p (a ++ b).
Proof.
  intros p a b H. induction H; intros K; auto.
  - cbn [app]. apply nested_char; auto.
  - rewrite <- app_assoc. apply nested_space; auto.
  - rewrite <- !app_assoc. apply nested_void; auto.
  - rewrite <- !app_assoc. eapply nested_element; eauto.
Qed.

Lemma nested_text : forall s, no_angles s -> nested Flow s.
Proof.
  induction s as [|c s IH]; intros [H K]; [constructor|]. apply nested_char.
  - intros ->. apply H. left. auto.
  - intros ->. apply K. left. auto.
  - apply IH. split; intros I; [apply H|apply K]; right; auto.
Qed.

Lemma nested_nl : forall p, nested p nl.
Proof. intros p. apply (nested_space p []). constructor. Qed.

Lemma wrap : forall p q name a inner s, In (name, q) (elements p) -> attributes a -> nested q inner ->
  s = !"<" ++ name ++ a ++ !">" ++ inner ++ !"</" ++ name ++ !">" -> nested p s.
Proof.
  intros p q name a inner s I A H ->. rewrite <- (app_nil_r (!"<" ++ _)). rewrite <- !app_assoc. eapply nested_element; eauto. constructor.
Qed.

Lemma void : forall name a s, In name void_elements -> attributes a -> s = !"<" ++ name ++ a ++ !">" -> nested Flow s.
Proof. intros name a s I A ->. rewrite <- (app_nil_r (!"<" ++ _)). rewrite <- !app_assoc. apply nested_void; auto. constructor. Qed.

Lemma nested_join : forall p l, Forall (nested p) l -> nested p (join nl l).
Proof.
  intros p l F. induction F as [|x l X F IH]; [constructor|]. destruct l as [|y l]; auto.
  change (join nl (x :: y :: l)) with (x ++ nl ++ join nl (y :: l)). apply nested_app; auto. apply nested_space. auto.
Qed.

Lemma lines_around : forall p s, nested p s -> nested p (nl ++ s ++ nl).
Proof. intros p s H. apply nested_space. apply nested_app; auto. apply nested_nl. Qed.

Lemma blank_angle : forall l, blank l -> ~ In "<"%char l.
Proof.
  intros l B. induction B as [|x s J B IH]; intros I; [destruct I|]. apply in_app_or in I as [I|I]; auto. clear -I J.
  unfold space_runes in J. cbn [In map] in J. repeat (destruct J as [<-|J]; [repeat (destruct I as [I|I]; [discriminate I|]); destruct I|]). destruct J.
Qed.

Lemma flow_li : forall p s, nested p s -> p = Flow -> forall l r, s = l ++ !"<li" ++ r -> ~ In "<"%char l -> False.
Proof.
  intros p s H. induction H as [p|c s C1 C2 H IH|p s H IH|name a s I A H IH|p q name a inner s I A H1 _ H2 IH]; intros P l r E N; subst p || clear P.
  - destruct l; discriminate.
  - destruct l as [|d l]; [injection E as E _; congruence|]. injection E as _ E. apply (IH eq_refl l r E). intros J. apply N. right. auto.
  - destruct l as [|d l]; [discriminate|]. injection E as _ E. apply (IH eq_refl l r E). intros J. apply N. right. auto.
  - destruct l as [|d l]; [|injection E as <- _; apply N; left; auto]. cbn [app] in E. destruct I as [<-|[<-|[]]]; discriminate E.
  - destruct l as [|d l]; [|injection E as <- _; apply N; left; auto]. cbn [elements map app In] in I.
    repeat (destruct I as [I|I]; [injection I as <- <-; discriminate E|]). destruct I.
Qed.

Lemma not_li : forall s, nested Flow s -> has_prefix !"<li" (trim_space s) = false.
Proof.
  intros s H. destruct (has_prefix !"<li" (trim_space s)) eqn:E; auto. exfalso. apply has_prefix_spec in E as [r E].
  destruct (trim_left_spec s) as (l & E1 & B & _). destruct (trim_right_spec (trim_left s)) as (r' & E2 & _). unfold trim_space in E.
  rewrite E in E2. eapply (flow_li Flow s H eq_refl l (r ++ r')); [|apply blank_angle; auto]. rewrite E1 at 1. rewrite E2 at 1. rewrite <- !app_assoc. reflexivity.
Qed.

Ltac flat := unfold quoted; cbn [app]; repeat (rewrite <- app_assoc; cbn [app]); rewrite ?app_nil_r; reflexivity.

Lemma div_nested : forall a s, no_angles a -> nested Flow s -> nested Flow (!"<div class=" ++ quoted a ++ !">" ++ nl ++ s ++ nl ++ !"</div>").
Proof.
  intros a s A H. eapply (wrap Flow Flow !"div" (!" " ++ !"class=" ++ quoted a) (nl ++ s ++ nl)); [cbn; tauto|apply attributes_some; unfold quoted; na|apply lines_around; auto|flat].
Qed.

Section Token.
Variable cfg : configuration.
Variable renderMath : str -> res (str * str * str * str).
Variable expand : str -> X unit str.
Hypothesis math_ok : forall f png w h st, renderMath f = Ok (png, w, h, st) -> no_angles w /\ no_angles h /\ no_angles st.

Definition nests (s : str) : Prop := forall h, expand s tt = Ok (h, tt) -> nested Flow h.

Lemma all_items : forall kind items, proper_list (AnyListToken kind items) <-> Forall (proper_item kind) items.
Proof.
  intros kind items. cbn [proper_list]. induction items as [|i items IH]; [split; auto|]. rewrite IH. split; [intros [A B]; constructor; auto|].
  intros F. split; [exact (Forall_inv F)|exact (Forall_inv_tail F)].
Qed.
Lemma all_lists : forall kind type content ls, proper_item kind (mkListItemToken type content ls) <-> (type = NORMAL_ITEM <-> kind <> Description) /\ Forall proper_list ls.
Proof.
  intros kind type content ls. cbn [proper_item]. assert (E : (fix all (ls : list ListToken) : Prop :=
        match ls with [] => True | l :: ls' => proper_list l /\ all ls' end) ls <-> Forall proper_list ls); [|tauto].
  induction ls as [|l ls IH]; [split; auto|]. rewrite IH. split; [intros [A B]; constructor; auto|].
  intros F. split; [exact (Forall_inv F)|exact (Forall_inv_tail F)].
Qed.

Definition item_place (kind : list_kind) : place := match kind with Description => Flow | _ => Items end.

Lemma kind_nested : forall kind s, nested (item_place kind) s -> nested Flow (kind_template kind s).
Proof.
  intros [] s H; cbn [item_place] in H; unfold kind_template.
  - eapply (wrap Flow Items !"ol" [] (nl ++ s ++ nl)); [cbn; tauto|apply attributes_none|apply lines_around; auto|unfold TEMPLATE_OL; flat].
  - eapply (wrap Flow Items !"ul" [] (nl ++ s ++ nl)); [cbn; tauto|apply attributes_none|apply lines_around; auto|unfold TEMPLATE_UL; flat].
  - apply div_nested; auto. na.
Qed.

Lemma item_nested : forall kind type s, (type = NORMAL_ITEM <-> kind <> Description) -> nested Flow s -> nested (item_place kind) (item_template type s).
Proof.
  intros kind type s T H. unfold item_template. destruct type.
  - rewrite not_li by auto. assert (E : item_place kind = Items) by (destruct kind; auto; exfalso; apply T; auto). rewrite E.
    eapply (wrap Items Flow !"li" [] (nl ++ s ++ nl)); [cbn; tauto|apply attributes_none|apply lines_around; auto|unfold TEMPLATE_LI; flat].
  - assert (E : item_place kind = Flow) by (destruct kind; auto; exfalso; assert (X : DESCRIPTION_ITEM = NORMAL_ITEM) by (apply T; discriminate); discriminate X).
    rewrite E. apply div_nested; auto. na.
  - assert (E : item_place kind = Flow) by (destruct kind; auto; exfalso; assert (X : DESCRIPTION_HEAD = NORMAL_ITEM) by (apply T; discriminate); discriminate X).
    rewrite E. apply div_nested; auto. na.
Qed.

Lemma Forall2_out : forall A B (P : A -> Prop) (R : A -> B -> Prop) (Q : B -> Prop) l l', (forall x y, P x -> R x y -> Q y) -> Forall P l -> Forall2 R l l' -> Forall Q l'.
Proof. intros A B P R Q l l' H F G. induction G; [constructor|]. constructor; [eapply H; eauto; exact (Forall_inv F)|]. apply IHG. exact (Forall_inv_tail F). Qed.

Lemma list_nested : (forall l h, proper_list l -> Forall nests (list_texts l) -> expandList expand l tt = Ok (h, tt) -> nested Flow h) /\
  (forall i kind h, proper_item kind i -> Forall nests (item_texts i) -> expandListItem expand i tt = Ok (h, tt) -> nested (item_place kind) h).
Proof.
  apply (list_token_ind
    (fun l => forall h, proper_list l -> Forall nests (list_texts l) -> expandList expand l tt = Ok (h, tt) -> nested Flow h)
    (fun i => forall kind h, proper_item kind i -> Forall nests (item_texts i) -> expandListItem expand i tt = Ok (h, tt) -> nested (item_place kind) h)).
  - intros kind items IH h P F H. rewrite all_items in P. cbn [list_texts] in F. rewrite expandList_eq in H. apply bindX_ok in H as (xs & [] & H1 & H). apply retX_ok in H as [-> _].
    apply mapX_ok in H1. apply kind_nested, nested_join.
    eapply (Forall2_out _ _ (fun i => forall h, expandListItem expand i tt = Ok (h, tt) -> nested (item_place kind) h)); [|rewrite Forall_forall in *|exact H1]; [auto|].
    intros i I h H. eapply IH; eauto. apply Forall_forall. intros s J. apply F. apply in_flat_map. eauto.
  - intros type content subLists IH kind h P F H. apply all_lists in P as [T P]. cbn [item_texts] in F. rewrite expandListItem_eq in H.
    apply bindX_ok in H as (x & [] & H1 & H). apply bindX_ok in H as (xs & [] & H2 & H). apply retX_ok in H as [-> _].
    apply mapX_ok in H2. apply item_nested; auto. apply nested_join. constructor; [apply (Forall_inv F); auto|]. apply Forall_inv_tail in F.
    eapply (Forall2_out _ _ (fun l => forall h, expandList expand l tt = Ok (h, tt) -> nested Flow h)); [|rewrite Forall_forall in *|exact H2]; [auto|].
    intros l I h H. eapply IH; eauto. apply Forall_forall. intros s J. apply F. apply in_flat_map. eauto.
Qed.

Lemma cell_nested : forall col h, Forall no_angles (Attributes col) -> nests (ColContent col) -> expandTableColumn expand col tt = Ok (h, tt) -> nested Cells h.
Proof.
  intros col h A N H. unfold expandTableColumn in H. apply bindX_ok in H as (x & [] & H1 & H). apply retX_ok in H as [-> _]. apply N in H1.
  set (a := if negb (str_eqb (join !" " (Attributes col)) []) then !" " ++ join !" " (Attributes col) else join !" " (Attributes col)).
  assert (O : attributes a).
  { unfold a. destruct (str_eqb (join !" " (Attributes col)) []) eqn:E; cbn [negb].
    - apply str_eqb_eq in E. rewrite E. apply attributes_none.
    - apply attributes_some, na_join; auto. na. }
  destruct (IsHeading col).
  - unfold TABLE_TEMPLATE_HEAD. replace (!"<th" ++ a ++ !">" ++ nl ++ x ++ nl ++ !"</th>" ++ nl) with ((!"<th" ++ a ++ !">" ++ nl ++ x ++ nl ++ !"</th>") ++ nl) by flat.
    apply nested_app; [|apply nested_nl]. eapply (wrap Cells Flow !"th" a (nl ++ x ++ nl)); [cbn; tauto|auto|apply lines_around; auto|flat].
  - unfold TABLE_TEMPLATE_COL. eapply (wrap Cells Flow !"td" a (nl ++ x ++ nl)); [cbn; tauto|auto|apply lines_around; auto|flat].
Qed.

Lemma row_nested : forall row h, Forall (fun col => Forall no_angles (Attributes col)) row -> Forall nests (map ColContent row) ->
  expandTableRow expand row tt = Ok (h, tt) -> nested Rows h.
Proof.
  intros row h A N H. unfold expandTableRow in H. apply bindX_ok in H as (xs & [] & H1 & H). apply retX_ok in H as [-> _]. apply mapX_ok in H1.
  unfold TABLE_TEMPLATE_ROW. eapply (wrap Rows Cells !"tr" [] (nl ++ join nl xs ++ nl)); [cbn; tauto|apply attributes_none| |flat]. apply lines_around, nested_join.
  eapply (Forall2_out _ _ (fun col => forall h, expandTableColumn expand col tt = Ok (h, tt) -> nested Cells h)); [|rewrite Forall_forall in *|exact H1]; [auto|].
  intros col I h H. eapply cell_nested; eauto. apply N. apply in_map. auto.
Qed.

Lemma table_nested : forall rows caption h, Forall (Forall (fun col => Forall no_angles (Attributes col))) rows -> nests caption ->
  Forall nests (flat_map (map ColContent) rows) -> expandTable expand rows caption tt = Ok (h, tt) -> nested Flow h.
Proof.
  intros rows caption h A C N H. unfold expandTable in H. apply bindX_ok in H as (xs & [] & H1 & H). apply bindX_ok in H as (c & [] & H2 & H). apply retX_ok in H as [-> _].
  unfold expandTableCaption in H2. apply bindX_ok in H2 as (c' & [] & H2 & H). apply retX_ok in H as [-> _]. apply C in H2. apply mapX_ok in H1.
  unfold TABLE_TEMPLATE. replace (!"<table>" ++ nl ++ join nl xs ++ nl ++ !"</table>" ++ TABLE_TEMPLATE_CAPTION c' ++ nl ++ !"</div>")
    with (((!"<table>" ++ nl ++ join nl xs ++ nl ++ !"</table>") ++ TABLE_TEMPLATE_CAPTION c') ++ nl ++ !"</div>") by flat.
  apply div_nested; [na|]. apply nested_app; [|unfold TABLE_TEMPLATE_CAPTION; apply nested_space, div_nested; auto; na].
  eapply (wrap Flow Rows !"table" [] (nl ++ join nl xs ++ nl)); [cbn; tauto|apply attributes_none| |flat]. apply lines_around, nested_join.
  eapply (Forall2_out _ _ (fun row => forall h, expandTableRow expand row tt = Ok (h, tt) -> nested Rows h)); [|rewrite Forall_forall in *|exact H1]; [auto|].
  intros row I h H. apply (row_nested row h); [apply A; exact I| |exact H]. apply Forall_forall. intros s J. apply N. apply in_flat_map. eauto.
Qed.

Lemma heading_name : forall n, 1 <= n <= 7 -> In (!"h" ++ itoa n, Flow) (elements Flow).
Proof. intros n H. do 8 (destruct n as [|n]; [cbn; tauto || lia|]). lia. Qed.

Lemma token_nested : forall v h, Forall nests (texts v) -> proper_token v -> htmlToken cfg renderMath expand v tt = Ok (h, tt) -> nested Flow h.
Proof.
  intros v h F [_ P] H. destruct v as [content depth|name text|url text|text|file caption x y|file x y|index content|index|content|content|l|rows caption];
    cbn [texts] in F; cbn [htmlToken] in H.
  - apply bindX_ok in H as (z & [] & H1 & H). apply retX_ok in H as [-> _]. apply (Forall_inv F) in H1. unfold TEMPLATE_HEADING.
    eapply (wrap Flow Flow (!"h" ++ itoa depth) [] z); [apply heading_name; auto|apply attributes_none|auto|flat].
  - apply (Forall_inv F) in H. auto.
  - apply bindX_ok in H as (z & [] & H1 & H). apply retX_ok in H as [-> _]. apply (Forall_inv F) in H1. unfold HREF_TEMPLATE.
    eapply (wrap Flow Flow !"a" (!" " ++ !"href=" ++ quoted url) z); [cbn; tauto|apply attributes_some; unfold quoted; na|auto|flat].
  - apply retX_ok in H as [-> _]. constructor.
  - apply bindX_ok in H as (z & [] & H1 & H). apply retX_ok in H as [-> _]. apply (Forall_inv F) in H1. unfold IMAGE_TEMPLATE.
    set (file' := escapePathComponents _). set (size := expandSizeTemplate x y).
    replace (!"<div class=" ++ quoted !"figure" ++ !">" ++ nl ++ !"<img alt=" ++ quoted !"image" ++ !" src=" ++ quoted (!"./" ++ file') ++ !" " ++ size ++ !">" ++ nl ++
      !"<div class=" ++ quoted !"caption" ++ !">" ++ nl ++ z ++ nl ++ !"</div>" ++ nl ++ !"</div>") with
      (!"<div class=" ++ quoted !"figure" ++ !">" ++ nl ++ ((!"<img alt=" ++ quoted !"image" ++ !" src=" ++ quoted (!"./" ++ file') ++ !" " ++ size ++ !">") ++ nl ++
      (!"<div class=" ++ quoted !"caption" ++ !">" ++ nl ++ z ++ nl ++ !"</div>")) ++ nl ++ !"</div>") by flat.
    apply div_nested; [na|]. apply nested_app; [|apply nested_space, div_nested; auto; na].
    eapply (void !"img" (!" " ++ !"alt=" ++ quoted !"image" ++ !" src=" ++ quoted (!"./" ++ file') ++ !" " ++ size)); [cbn; tauto| |flat].
    apply attributes_some. generalize (na_path (filenameToImagePath cfg file)) (na_size x y). fold file' size. clearbody file' size. intros N1 N2. unfold quoted. na.
  - apply retX_ok in H as [-> _]. unfold IMAGE_INLINE_TEMPLATE. set (file' := escapePathComponents _). set (size := expandSizeTemplate x y).
    eapply (void !"img" (!" " ++ !"alt=" ++ quoted !"image" ++ !" class=" ++ quoted !"inline" ++ !" src=" ++ quoted (!"./" ++ file') ++ !" " ++ size)); [cbn; tauto| |flat].
    apply attributes_some. generalize (na_path (filenameToImagePath cfg file)) (na_size x y). fold file' size. clearbody file' size. intros N1 N2. unfold quoted. na.
  - apply bindX_ok in H as (z & [] & H1 & H). apply retX_ok in H as [-> _]. apply (Forall_inv F) in H1. unfold TEMPLATE_REF_DEF.
    do 3 (apply nested_app; [apply nested_text; na|]). apply nested_app; auto. eapply (void !"br" []); [cbn; tauto|apply attributes_none|reflexivity].
  - apply retX_ok in H as [-> _]. apply nested_text. unfold TEMPLATE_REF_USAGE. na.
  - unfold expandMath in H. apply bindX_ok in H as ([[[p w] ht] st] & [] & H1 & H). apply retX_ok in H as [-> _].
    assert (M : renderMath content = Ok (p, w, ht, st)) by (unfold failX in H1; destruct (renderMath content); try discriminate; congruence).
    apply math_ok in M as (M1 & M2 & M3). unfold MATH_TEMPLATE. set (file' := escapePathComponents _).
    eapply (void !"img" (!" " ++ !"alt=" ++ quoted !"image" ++ !" src=" ++ quoted (!"./" ++ file') ++ !" style=" ++ quoted (!"width: " ++ w ++ !"; height: " ++ ht ++ !"; " ++ st))); [cbn; tauto| |flat].
    apply attributes_some. generalize (na_path p). fold file'. clearbody file'. intros N1. unfold quoted. na.
  - apply retX_ok in H as [-> _]. apply nested_text. auto.
  - apply (proj1 list_nested l); auto.
  - eapply table_nested; eauto; [exact (Forall_inv F)|exact (Forall_inv_tail F)].
Qed.
End Token.

(** ** Markers *)

Definition filling (l : list (str * str)) (hs : list str) : str := concat (map (fun p => fst p ++ snd p) (combine hs (map snd l))).

Lemma Forall2_len : forall A B (P : A -> B -> Prop) l l', Forall2 P l l' -> length l = length l'.
Proof. intros A B P l l' F. induction F; cbn; auto. Qed.

Lemma filling_app : forall l1 l2 h1 h2, length h1 = length l1 -> filling (l1 ++ l2) (h1 ++ h2) = filling l1 h1 ++ filling l2 h2.
Proof.
  induction l1 as [|[k s] l1 IH]; intros l2 [|h h1] h2 L; try discriminate; auto. unfold filling. cbn [map app combine concat]. rewrite <- !app_assoc. f_equal. f_equal. apply IH. auto.
Qed.

Lemma map_app_inv : forall A B (f : A -> B) l a b, map f l = a ++ b -> exists l1 l2, l = l1 ++ l2 /\ map f l1 = a /\ map f l2 = b.
Proof.
  intros A B f l a. revert l. induction a as [|x a IH]; intros l b E; [exists [], l; auto|]. destruct l as [|y l]; [discriminate|]. cbn in E. injection E as E1 E2.
  destruct (IH _ _ E2) as (l1 & l2 & -> & E3 & E4). exists (y :: l1), l2. cbn. rewrite E1, E3. auto.
Qed.

Lemma marker_key_text : forall m e k h x, In (k, x) marker_html -> key_text m e k h -> h = x.
Proof.
  intros m e k h x I H. inversion H as [? ? J|? ? ? J]; subst.
  - apply marker_pair in I as (n & I & ->). eapply marker_function; eauto.
  - exfalso. apply (marker_not_key k); auto. apply marker_pair in I as (n & I & ->). eapply marker_in; eauto.
Qed.

Lemma balanced_nested : forall m,
  forall ks, balanced ks -> forall l hs, map fst l = ks -> Forall2 (key_text m (fun v h => nested Flow h)) ks hs ->
  Forall (fun p => no_angles (snd p)) l -> nested Flow (filling l hs).
Proof.
  intros m ks B. induction B as [|k ks K B IH|a b B1 IH1 B2 IH2|a b B1 IH1 B2 IH2]; intros l hs E F N.
  - inversion F; subst. constructor.
  - destruct l as [|[k' s] l]; [discriminate|]. injection E as E1 E2. inversion F as [|? h ? hs' H F']; subst. cbn [fst] in *. unfold filling. cbn [map combine concat fst snd].
    rewrite <- app_assoc. apply nested_app.
    + destruct K as [->|K].
      * apply (marker_key_text _ _ _ _ !"<br><br>") in H; [|cbn; tauto]. rewrite H.
        apply (nested_app Flow !"<br>" !"<br>"); eapply (void !"br" []); try reflexivity; try apply attributes_none; cbn; tauto.
      * inversion H as [? ? J|? ? ? ? ? J]; subst; auto. exfalso. apply (marker_not_key k); auto. apply marker_pair in J as (n & J & ->). eapply marker_in; eauto.
    + apply nested_app; [apply nested_text; exact (Forall_inv N)|]. apply IH; auto. exact (Forall_inv_tail N).
  - apply (map_app_inv _ _ fst l [!"$$MARKER_BOLD_OPEN$$"] (a ++ _)) in E as (l0 & l1 & -> & E0 & E). apply map_app_inv in E as (l2 & l3 & -> & E2 & E).
    apply (map_app_inv _ _ fst l3 [!"$$MARKER_BOLD_CLOSE$$"] b) in E as (l4 & l5 & -> & E4 & E5).
    destruct l0 as [|[k0 s0] [|]]; try discriminate. destruct l4 as [|[k4 s4] [|]]; try discriminate.
    inversion F as [|? h0 ? hs' H0 F']; subst. apply Forall2_app_inv_l in F' as (h2 & h3 & F2 & F3 & ->). inversion F3 as [|? h4 ? h5 H4 F5]; subst.
    apply (marker_key_text _ _ _ _ !"<b>") in H0; [|cbn; tauto]. apply (marker_key_text _ _ _ _ !"</b>") in H4; [|cbn; tauto]. subst h0 h4.
    apply Forall_app in N as [N0 N]. apply Forall_app in N as [N2 N]. apply Forall_app in N as [N4 N5]. apply Forall_inv in N0, N4. cbn [snd] in *.
    assert (L : length h2 = length l2) by (apply Forall2_len in F2; rewrite map_length in F2; auto).
    change (filling ([(k0, s0)] ++ l2 ++ [(k4, s4)] ++ l5) (!"<b>" :: h2 ++ !"</b>" :: h5)) with ((!"<b>" ++ s0) ++ filling (l2 ++ (k4, s4) :: l5) (h2 ++ !"</b>" :: h5)).
    rewrite filling_app by auto. change (filling ((k4, s4) :: l5) (!"</b>" :: h5)) with ((!"</b>" ++ s4) ++ filling l5 h5).
    replace ((!"<b>" ++ s0) ++ filling l2 h2 ++ (!"</b>" ++ s4) ++ filling l5 h5) with (!"<" ++ !"b" ++ [] ++ !">" ++ (s0 ++ filling l2 h2) ++ !"</" ++ !"b" ++ !">" ++ (s4 ++ filling l5 h5)).
    + apply (nested_element Flow Flow); [cbn; tauto|apply attributes_none| |]; (apply nested_app; [apply nested_text; auto|]); auto.
    + cbn [app]. rewrite <- !app_assoc. reflexivity.
  - apply (map_app_inv _ _ fst l [!"$$MARKER_ITALIC_OPEN$$"] (a ++ _)) in E as (l0 & l1 & -> & E0 & E). apply map_app_inv in E as (l2 & l3 & -> & E2 & E).
    apply (map_app_inv _ _ fst l3 [!"$$MARKER_ITALIC_CLOSE$$"] b) in E as (l4 & l5 & -> & E4 & E5).
    destruct l0 as [|[k0 s0] [|]]; try discriminate. destruct l4 as [|[k4 s4] [|]]; try discriminate.
    inversion F as [|? h0 ? hs' H0 F']; subst. apply Forall2_app_inv_l in F' as (h2 & h3 & F2 & F3 & ->). inversion F3 as [|? h4 ? h5 H4 F5]; subst.
    apply (marker_key_text _ _ _ _ !"<i>") in H0; [|cbn; tauto]. apply (marker_key_text _ _ _ _ !"</i>") in H4; [|cbn; tauto]. subst h0 h4.
    apply Forall_app in N as [N0 N]. apply Forall_app in N as [N2 N]. apply Forall_app in N as [N4 N5]. apply Forall_inv in N0, N4. cbn [snd] in *.
    assert (L : length h2 = length l2) by (apply Forall2_len in F2; rewrite map_length in F2; auto).
    change (filling ([(k0, s0)] ++ l2 ++ [(k4, s4)] ++ l5) (!"<i>" :: h2 ++ !"</i>" :: h5)) with ((!"<i>" ++ s0) ++ filling (l2 ++ (k4, s4) :: l5) (h2 ++ !"</i>" :: h5)).
    rewrite filling_app by auto. change (filling ((k4, s4) :: l5) (!"</i>" :: h5)) with ((!"</i>" ++ s4) ++ filling l5 h5).
    replace ((!"<i>" ++ s0) ++ filling l2 h2 ++ (!"</i>" ++ s4) ++ filling l5 h5) with (!"<" ++ !"i" ++ [] ++ !">" ++ (s0 ++ filling l2 h2) ++ !"</" ++ !"i" ++ !">" ++ (s4 ++ filling l5 h5)).
    + apply (nested_element Flow Flow); [cbn; tauto|apply attributes_none| |]; (apply nested_app; [apply nested_text; auto|]); auto.
    + cbn [app]. rewrite <- !app_assoc. reflexivity.
Qed.

Lemma html_nested : forall cfg renderMath m,
  (forall f png w h st, renderMath f = Ok (png, w, h, st) -> no_angles w /\ no_angles h /\ no_angles st) ->
  Forall (fun p => proper_token (snd p)) m ->
  forall fuel s html, proper_text s -> htmlExpand cfg renderMath m fuel s = Ok html -> nested Flow html.
Proof.
  intros cfg renderMath m R P fuel. induction fuel as [|fuel IH]; intros s html T H; [discriminate|].
  destruct T as (d & O & -> & N1 & N2 & B). apply expandString_html in H as (hs & F & ->); auto. destruct d as [s l]. cbn [fst snd] in *.
  change (filled (s, l) hs) with (s ++ filling l hs). apply nested_app; [apply nested_text; auto|].
  apply (balanced_nested m (map fst l) B l hs); auto. clear -F P R IH. induction F as [|k h ks hs K F IHF]; constructor; auto.
  inversion K as [? ? I|? v ? I L E]; subst; [apply text_of_marker; auto|]. apply (text_of_token _ _ _ v); auto.
  assert (V : proper_token v). { apply lookup_In in L. rewrite Forall_forall in P. apply (P _ L). }
  unfold token_html, expandToken in E. cbn [handleToken HtmlGenerator] in E.
  apply (token_nested cfg renderMath _ R v h) in E; auto. destruct V as [V _]. eapply Forall_impl; [|exact V]. intros s T h' E'. apply (IH s); auto.
  eapply expandString_state. exact E'.
Qed.
