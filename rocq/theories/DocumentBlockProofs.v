(** * Parsing a document: blocks *)

From Coq Require Import Ascii String.
From Coq Require Import List Arith Bool Lia.
From Verif Require Import GoStr GoStrFacts TextFacts TrimFacts UtilModel BracketModel ConfigModel TokenModel TokenSpec TokenProofs PassSpec MarkupSpec SafeSpec.
From Verif Require Import FormattingModel FormattingSpec FormattingProofs HeadingModel LinkModel ImageModel ReferenceModel ListModel TableModel ParagraphModel ParagraphSpec ParagraphProofs TokenizerModel JudgeProofs HeadingProofs LinkProofs NowikiProofs SafeTextProofs SafeProofs ShapeProofs.
From Verif Require ReferenceSpec.
From Verif Require Import MathQuietProofs PropPasses DocumentSpec DocumentSettledProofs DocumentLineProofs DocumentPictureProofs DocumentRunProofs.
Import ListNotations.
Local Open Scope list_scope.

(** ** Lines *)

Fixpoint flat (ls : list (list inline)) : list inline :=
  match ls with
  | [] => []
  | [l] => l
  | l :: ls' => l ++ Words nl :: flat ls'
  end.

(** Parts, with blank lines before, between and behind them; [g]: how many of them *)
Fixpoint layout {A} (s : A) (g : list nat) (lss : list (list A)) : list A :=
  repeat s (hd 0 g) ++ match lss with [] => [] | ls :: lss' => ls ++ layout s (tl g) lss' end.

Lemma flat_cons : forall l l1 ls, flat (l :: l1 :: ls) = l ++ Words nl :: flat (l1 :: ls).
Proof. reflexivity. Qed.
Lemma layout_cons : forall A (s : A) g l ls, layout s g (l :: ls) = repeat s (hd 0 g) ++ l ++ layout s (tl g) ls.
Proof. reflexivity. Qed.
Lemma layout_nil : forall A (s : A) g, layout s g [] = repeat s (hd 0 g).
Proof. intros. cbn [layout]. apply app_nil_r. Qed.
Lemma repeat_map : forall A B (f : A -> B) s n, map f (repeat s n) = repeat (f s) n.
Proof. induction n as [|n IH]; auto. cbn [repeat map]. rewrite IH. auto. Qed.
Lemma repeat_Forall : forall A (Q : A -> Prop) s n, Q s -> Forall Q (repeat s n).
Proof. intros A Q s n H. induction n; constructor; auto. Qed.
Lemma repeat_Forall2 : forall A B (R : A -> B -> Prop) s s', (forall x, R s x -> x = s') -> forall n rs, Forall2 R (repeat s n) rs -> rs = repeat s' n.
Proof. intros A B R s s' H. induction n as [|n IH]; intros rs F; inversion F as [|? x ? r X F2]; subst; auto. cbn [repeat]. rewrite (H x X), (IH _ F2). auto. Qed.

Lemma join_more : forall s (a b : str) l, join s (a :: b :: l) = a ++ s ++ join s (b :: l).
Proof. reflexivity. Qed.

Lemma flat_text : forall ls, line_wikitext (flat ls) = join nl (map line_wikitext ls).
Proof.
  induction ls as [|l [|l1 ls] IH]; auto. rewrite flat_cons, line_app, line_cons, IH. cbn [map inline_wikitext]. rewrite join_more. auto.
Qed.

Lemma layout_map : forall A B (f : A -> B) s lss g, map f (layout s g lss) = layout (f s) g (map (map f) lss).
Proof.
  induction lss as [|l lss IH]; intros g; cbn [map]; [rewrite !layout_nil; apply repeat_map|]. rewrite !layout_cons, !map_app, IH, repeat_map. auto.
Qed.

Lemma layout_Forall2 : forall A B (R : A -> B -> Prop) s s', (forall x, R s x -> x = s') -> forall lss g rs, Forall2 R (layout s g lss) rs ->
  exists rss, rs = layout s' g rss /\ Forall2 (Forall2 R) lss rss.
Proof.
  intros A B R s s' H. induction lss as [|l lss IH]; intros g rs F.
  - rewrite layout_nil in F. apply (repeat_Forall2 _ _ R s s' H) in F. exists []. rewrite layout_nil. auto.
  - rewrite layout_cons in F. apply Forall2_app_inv_l in F as (r1 & r2 & F1 & F2 & ->). apply Forall2_app_inv_l in F2 as (r2' & r3 & F2 & F3 & ->). apply (repeat_Forall2 _ _ R s s' H) in F1. subst r1.
    destruct (IH _ _ F3) as (rss & -> & G). exists (r2' :: rss). split; [|constructor; auto]. rewrite layout_cons. auto.
Qed.

Lemma flat_Forall2 : forall (R : inline -> inline -> Prop), (forall x, R (Words nl) x -> x = Words nl) -> forall ls rs, Forall2 R (flat ls) rs ->
  exists ls', rs = flat ls' /\ Forall2 (Forall2 R) ls ls'.
Proof.
  intros R H. induction ls as [|l [|l1 ls] IH]; intros rs F.
  - inversion F; subst. exists []. auto.
  - exists [rs]. auto.
  - rewrite flat_cons in F. apply Forall2_app_inv_l in F as (r1 & r2 & F1 & F2 & ->). inversion F2 as [|? x ? r3 X F3]; subst. apply H in X. subst x.
    destruct (IH r3 F3) as (rss & -> & G). exists (r1 :: rss). split; [|constructor; auto]. inversion G; subst. auto.
Qed.

Lemma flat_Forall : forall (Q : inline -> Prop) ls, Q (Words nl) -> Forall (Forall Q) ls -> Forall Q (flat ls).
Proof.
  intros Q ls N F. induction F as [|l ls H F IH]; [constructor|]. destruct ls as [|l1 ls]; auto. rewrite flat_cons. apply Forall_app. auto.
Qed.

Lemma layout_Forall : forall A (Q : A -> Prop) s g lss, Q s -> Forall (Forall Q) lss -> Forall Q (layout s g lss).
Proof.
  intros A Q s g lss N F. revert g. induction F as [|l ls H F IH]; intros g; [rewrite layout_nil; apply repeat_Forall; auto|]. rewrite layout_cons. apply Forall_app. split; [apply repeat_Forall; auto|]. apply Forall_app. auto.
Qed.

Lemma layout_nonempty : forall A (s : A) g lss, lss <> [] -> Forall (fun l => l <> []) lss -> layout s g lss <> [].
Proof.
  intros A s g lss N F E. destruct F as [|l lss H F]; [contradiction|]. rewrite layout_cons in E. apply app_eq_nil in E as [_ E]. apply app_eq_nil in E as [E _]. auto.
Qed.

Lemma join_nil_cons : forall s (l : list str), l <> [] -> join s ([] :: l) = s ++ join s l.
Proof. intros s [|x l] N; [contradiction|]. reflexivity. Qed.

Lemma join_together : forall s (a b : list str), a <> [] -> b <> [] -> join s (a ++ b) = join s a ++ s ++ join s b.
Proof.
  induction a as [|x [|y a] IH]; intros b A B; [contradiction|destruct b; [contradiction|reflexivity]|]. change ((x :: y :: a) ++ b) with (x :: (y :: a) ++ b).
  change ((y :: a) ++ b) with (y :: a ++ b) at 1. rewrite join_more. change (y :: a ++ b) with ((y :: a) ++ b). rewrite IH by (auto; discriminate). rewrite join_more, <- !app_assoc. auto.
Qed.

(** Blocks that may follow each other like that *)
Fixpoint gaps_ok (g : list nat) (doc : list block) : Prop :=
  match doc with
  | [] => True
  | b :: doc' => (forall b' doc'', doc' = b' :: doc'' -> hd 0 (tl g) = 0 -> may_touch b b') /\ gaps_ok (tl g) doc'
  end.
Definition laid (g : list nat) (doc : list block) : str := join nl (layout [] g (map block_lines doc)).

Lemma writes_laid : forall doc text, Forall (fun b => forall ls, block_lines b <> [] :: ls) doc -> Forall (fun b => block_lines b <> []) doc -> writes doc text -> exists g, gaps_ok g doc /\ text = laid g doc.
Proof.
  intros doc text F N (lines & L & ->). unfold laid.
  assert (X : exists g, gaps_ok g doc /\ lines = layout [] g (map block_lines doc)); [|destruct X as (g & G & ->); eauto].
  induction L as [|doc lines L IH|b doc lines L IH T]; [exists []; cbn; auto|destruct (IH F N) as (g & G & E)|inversion F as [|? ? _ F2]; inversion N as [|? ? _ N2]; subst; destruct (IH F2 N2) as (g & G & E)].
  - exists (S (hd 0 g) :: tl g). split; [destruct doc as [|b doc]; [exact I|]; destruct G as [G1 G2]; split; [exact G1|exact G2]|]. rewrite E. destruct doc; reflexivity.
  - exists (0 :: g). split; [|cbn [map]; rewrite layout_cons, E; reflexivity]. split; [|exact G]. cbn [tl]. intros b' doc' -> Z. destruct (T b' doc' eq_refl) as [H|(lines' & H)]; auto. exfalso.
    rewrite E in H. cbn [map] in H. rewrite layout_cons, Z in H. cbn [repeat app] in H. inversion F2 as [|? ? F3 _]; inversion N2 as [|? ? N3 _]; subst. destruct (block_lines b') as [|l ls]; [contradiction|]. injection H as -> _. apply (F3 ls). auto.
Qed.

(** ** Lists as trees *)

Section ItemInd.
Variable Q : item -> Prop.
Hypothesis H : forall m text below, Forall (Forall Q) below -> Q (Item m text below).
Fixpoint item_rect' (i : item) : Q i :=
  match i with Item m text below => H m text below
    ((fix go (ls : list (list item)) : Forall (Forall Q) ls :=
        match ls with
        | [] => Forall_nil _
        | l :: ls' => Forall_cons _ ((fix go2 (l : list item) : Forall Q l :=
            match l with
            | [] => Forall_nil _
            | j :: l' => Forall_cons _ (item_rect' j) (go2 l')
            end) l) (go ls')
        end) below) end.
End ItemInd.

(** Trees of the same shape *)
Inductive item_rel (R : list inline -> list inline -> Prop) : item -> item -> Prop :=
| related : forall m x x' below below', R x x' -> Forall2 (Forall2 (item_rel R)) below below' -> item_rel R (Item m x below) (Item m x' below').

(** Proper trees, whose texts have a property *)
Inductive list_good (Q : list_mark -> list inline -> Prop) : list item -> Prop :=
| good_list : forall i items, Forall (item_good Q) (i :: items) -> Forall (fun j => belongs (mark_of i) (mark_of j)) items -> list_good Q (i :: items)
with item_good (Q : list_mark -> list inline -> Prop) : item -> Prop :=
| good_item : forall m text below, Q m text -> Forall (list_good Q) below -> lists_apart below -> item_good Q (Item m text below).

Lemma rel_mark : forall R i i', item_rel R i i' -> mark_of i' = mark_of i.
Proof. intros R i i' H. inversion H; subst. auto. Qed.

Lemma rel_apart : forall R ls ls', Forall2 (Forall2 (item_rel R)) ls ls' -> lists_apart ls -> lists_apart ls'.
Proof.
  intros R ls ls' F. induction F as [|l l' ls ls' H F IH]; intros A; auto.
  destruct H as [|[m x b] [m' x' b'] l l' J H]; [exact I|]. destruct F as [|l1 l1' ls ls' H1 F]; [exact I|].
  destruct H1 as [|[m1 x1 b1] [m1' x1' b1'] l1 l1' J1 H1]; [exact I|]. destruct A as [A1 A2]. inversion J; subst. inversion J1; subst. split; [exact A1|]. apply IH. exact A2.
Qed.

Lemma rel_list_good : forall R (Q Q' : list_mark -> list inline -> Prop) l l', Forall (fun i => forall i', item_rel R i i' -> item_good Q i -> item_good Q' i') l ->
  Forall2 (item_rel R) l l' -> list_good Q l -> list_good Q' l'.
Proof.
  intros R Q Q' l l' G F L. inversion L as [i items L1 L2]; subst. inversion F as [|? i' ? items' F1 F2]; subst. inversion L1 as [|? ? L3 L4]; subst. inversion G as [|? ? G1 G2]; subst. constructor.
  - constructor; [eapply G1; eauto|]. clear - F2 L4 G2. revert L4 G2. induction F2; intros L4 G2; constructor; inversion L4; subst; inversion G2; subst; auto.
  - rewrite (rel_mark _ _ _ F1). clear - F2 L2. revert L2. induction F2 as [|j j' l l' J F IH]; intros L2; constructor; inversion L2; subst; auto. rewrite (rel_mark _ _ _ J). auto.
Qed.

Lemma rel_item_good : forall (R : list inline -> list inline -> Prop) (Q Q' : list_mark -> list inline -> Prop), (forall m x x', Q m x -> R x x' -> Q' m x') ->
  forall i i', item_rel R i i' -> item_good Q i -> item_good Q' i'.
Proof.
  intros R Q Q' H. refine (item_rect' _ _). intros m x below IH i' I G. inversion I as [? ? x' ? below' X B]; subst. inversion G as [? ? ? G1 G2 G3]; subst. constructor.
  - eapply H; eauto.
  - clear - IH B G2. revert IH G2. induction B as [|l l' ls ls' H B IHB]; intros IH G2; constructor; inversion IH; subst; inversion G2; subst; auto. eapply rel_list_good; eauto.
  - eapply rel_apart; eauto.
Qed.

Lemma rel_good : forall (R : list inline -> list inline -> Prop) (Q Q' : list_mark -> list inline -> Prop) l l', (forall m x x', Q m x -> R x x' -> Q' m x') ->
  Forall2 (item_rel R) l l' -> list_good Q l -> list_good Q' l'.
Proof. intros R Q Q' l l' H. apply rel_list_good. apply Forall_forall. intros i _ i'. apply rel_item_good. exact H. Qed.

Lemma rel_mono : forall (R R' : list inline -> list inline -> Prop), (forall x x', R x x' -> R' x x') -> forall i i', item_rel R i i' -> item_rel R' i i'.
Proof.
  intros R R' H. refine (item_rect' _ _). intros m x below IH i' I. inversion I as [? ? x' ? below' X B]; subst. constructor; auto.
  clear - IH B. revert IH. induction B as [|l l' ls ls' L B IHB]; intros IH; constructor; inversion IH as [|? ? IH1 IH2]; subst; auto. clear - IH1 L. revert IH1. induction L; intros IH1; constructor; inversion IH1; subst; auto.
Qed.

(** ** Blocks *)

Fixpoint item_rows (above : str) (i : item) : list (list inline) :=
  match i with Item m text below =>
    (Words (above ++ [sign m] ++ !" ") :: text) :: concat (map (fun l => concat (map (item_rows (above ++ [sign m])) l)) below) end.

Definition cells_row (cells : list grid_cell) : list inline :=
  match cells with
  | [] => []
  | c :: cells' => match snd c with [] => [Words (cell_start c)] | text => Words (cell_start c ++ !" ") :: text end ++
      concat (map (fun c => Words (!" " ++ cell_sign c ++ cell_start c ++ !" ") :: snd c) cells')
  end.

Definition caption_rows (caption : option (list inline)) : list (list inline) := match caption with Some c => [Words !"|+ " :: c] | None => [] end.
Definition grid_rows (rows : list (list (list grid_cell))) : list (list inline) := concat (map (fun row => [Words !"|-"] :: map cells_row row) rows).

Definition listing (a : ReferenceSpec.attributes) : str := ReferenceSpec.element_text (ReferenceSpec.ShortList a).

Definition lines_of (b : block) : list (list inline) :=
  match b with
  | Heading n title => [Words (equals n ++ !" ") :: title ++ [Words (!" " ++ equals n)]]
  | Paragraph lines => lines
  | Items items => concat (map (item_rows []) items)
  | Grid a caption rows => [Words (!"{|" ++ a)] :: caption_rows caption ++ grid_rows rows ++ [[Words !"|}"]]
  | Figure p => [[Picture p]]
  | Footnotes n title a _ => [Words (equals n ++ !" ") :: title ++ [Words (!" " ++ equals n)]; [Words (listing a)]]
  end.

Lemma one_text : forall s, line_wikitext [Words s] = s.
Proof. intros s. unfold line_wikitext. cbn. apply app_nil_r. Qed.

Lemma map_concat : forall A B (f : A -> B) ls, map f (concat ls) = concat (map (map f) ls).
Proof. intros. apply concat_map. Qed.

Lemma item_rows_text : forall i above, map line_wikitext (item_rows above i) = item_lines above i.
Proof.
  refine (item_rect' _ _). intros m text below IH above. cbn [item_rows item_lines map]. f_equal; [rewrite line_cons; cbn [inline_wikitext]; rewrite <- !app_assoc; auto|].
  rewrite map_concat, map_map. f_equal. apply map_ext_in. intros l L. rewrite map_concat, map_map. f_equal. apply map_ext_in. intros i I.
  rewrite Forall_forall in IH. specialize (IH l L). rewrite Forall_forall in IH. apply IH. auto.
Qed.

Lemma cells_row_text : forall cells, line_wikitext (cells_row cells) = cells_line cells.
Proof.
  intros [|c cells]; auto. cbn [cells_row cells_line]. rewrite line_app.
  assert (E : line_wikitext (concat (map (fun c => Words (!" " ++ cell_sign c ++ cell_start c ++ !" ") :: snd c) cells)) = concat (map (fun c => !" " ++ cell_sign c ++ cell_start c ++ !" " ++ line_wikitext (snd c)) cells)).
  { induction cells as [|d cells IH]; auto. cbn [map concat]. rewrite line_app, line_cons, IH. cbn [inline_wikitext]. rewrite <- !app_assoc. auto. }
  rewrite E. destruct (snd c) as [|i text]; [rewrite one_text; auto|]. rewrite line_cons. cbn [inline_wikitext]. rewrite <- !app_assoc. auto.
Qed.

Lemma lines_of_text : forall b, map line_wikitext (lines_of b) = block_lines b.
Proof.
  intros [n title|lines|items|a caption rows|p|fn ft fa fx]; cbn [lines_of block_lines map]; auto.
  - rewrite line_cons, line_app. cbn [inline_wikitext]. unfold line_wikitext at 2. cbn [map concat inline_wikitext]. rewrite app_nil_r, <- !app_assoc. auto.
  - rewrite map_concat, map_map. f_equal. apply map_ext. intros i. apply item_rows_text.
  - rewrite one_text. cbn [app]. f_equal. rewrite !map_app. cbn [map]. rewrite one_text. f_equal; [destruct caption; auto|]. f_equal. unfold grid_rows. rewrite map_concat, map_map. f_equal. apply map_ext. intros row.
    cbn [map]. rewrite one_text, map_map. f_equal. apply map_ext. apply cells_row_text.
  - unfold line_wikitext. cbn. rewrite app_nil_r. auto.
  - rewrite one_text, line_cons, line_app. cbn [inline_wikitext]. unfold line_wikitext at 2. cbn [map concat inline_wikitext]. rewrite app_nil_r, <- !app_assoc. auto.
Qed.

Definition doc_lines (g : list nat) (doc : list block) : list (list inline) := layout [] g (map lines_of doc).

Fixpoint bold_item (i : item) : item := match i with Item m text below => Item m (bold [] text) (map (map bold_item) below) end.
Definition bold_cell (c : grid_cell) : grid_cell := (fst c, bold [] (snd c)).

Definition bold_block (b : block) : block :=
  match b with
  | Heading n title => Heading n (bold [] title)
  | Paragraph lines => Paragraph (map (bold []) lines)
  | Items items => Items (map bold_item items)
  | Grid a caption rows => Grid a (option_map (bold []) caption) (map (map (map bold_cell)) rows)
  | Figure p => Figure p
  | Footnotes n title a texts => Footnotes n (bold [] title) a (map (fun p => (fst p, bold [] (snd p))) texts)
  end.

Section Doc.
Context {cfg : configuration}.

(** Text without keys, or text that begins with a key *)
Definition piece (i : inline) : Prop :=
  match i with Words s => ~ In "$"%char s \/ exists a r, atom a /\ s = a ++ r | _ => True end.

Definition text_fine (l : list inline) : Prop := fine l /\ Forall piece l /\ exists s, In (Words s) l /\ ~ In "$"%char s.
Definition item_fine (m : list_mark) (l : list inline) : Prop := fine l /\ (m = Term -> ~ In ":"%char (line_wikitext l)).
Definition cell_fine (l : list inline) : Prop := fine l /\ ~ In "!"%char (line_wikitext l).
Definition cells_fine (cells : list grid_cell) : Prop := exists h, (exists k, cells = [(k, [])] /\ kind_ok h k) \/ (cells <> [] /\ Forall (fun c => kind_ok h (fst c) /\ cell_fine (snd c)) cells).

Definition block_fine (b : block) : Prop :=
  match b with
  | Heading n title => 1 <= n <= 6 /\ fine title /\ ~ In equal_sign (line_wikitext title)
  | Paragraph lines => lines <> [] /\ Forall text_fine lines
  | Items items => list_good item_fine items
  | Grid a caption rows => attributes_ok a /\ (forall c, caption = Some c -> cell_fine c) /\ Forall (Forall cells_fine) rows
  | Figure p => fine [Picture p]
  | Footnotes n title a texts => (1 <= n <= 6 /\ fine title /\ ~ In equal_sign (line_wikitext title)) /\ ReferenceSpec.attributes_ok a /\ Forall (fun p => fine (snd p)) texts
  end.

Definition no_heading (b : block) : Prop := match b with Heading _ _ | Footnotes _ _ _ _ => False | _ => True end.

Lemma lines_nonempty : forall b, block_fine b -> lines_of b <> [].
Proof.
  intros [n title|lines|items|a caption rows|p|fn ft fa fx] F; cbn [lines_of block_fine] in *; try discriminate; [apply F|]. inversion F as [i items' G _]; subst. cbn [map concat]. destruct i. discriminate.
Qed.

Lemma doc_text : forall g doc, laid g doc = line_wikitext (flat (doc_lines g doc)).
Proof.
  intros g doc. unfold laid, doc_lines. rewrite flat_text, layout_map, map_map. rewrite (map_ext _ _ lines_of_text). auto.
Qed.

(** Blocks of the same shape *)
Definition cell_rel (R : list inline -> list inline -> Prop) (c c' : grid_cell) : Prop := fst c' = fst c /\ R (snd c) (snd c').
Definition block_rel (R : list inline -> list inline -> Prop) (b b' : block) : Prop :=
  match b with
  | Heading n title => exists title', b' = Heading n title' /\ R title title'
  | Paragraph lines => exists lines', b' = Paragraph lines' /\ Forall2 R lines lines'
  | Items items => exists items', b' = Items items' /\ Forall2 (item_rel R) items items'
  | Grid a caption rows => exists caption' rows', b' = Grid a caption' rows' /\
      match caption, caption' with Some c, Some c' => R c c' | None, None => True | _, _ => False end /\ Forall2 (Forall2 (Forall2 (cell_rel R))) rows rows'
  | Figure p => exists line, b' = Paragraph [line] /\ R [Picture p] line
  | Footnotes _ _ _ _ => False
  end.

Lemma block_rel_mono : forall (R R' : list inline -> list inline -> Prop) b b', (forall x x', R x x' -> R' x x') -> block_rel R b b' -> block_rel R' b b'.
Proof.
  intros R R' b b' H. destruct b as [n title|lines|items|a caption rows|p|fn ft fa fx]; cbn [block_rel].
  - intros (x & E & S). eauto.
  - intros (x & E & S). exists x. split; auto. eapply Forall2_weaken; eauto.
  - intros (x & E & S). exists x. split; auto. eapply Forall2_weaken; [|exact S]. intros. eapply rel_mono; eauto.
  - intros (c & rs & E & S1 & S2). exists c, rs. split; auto. split; [destruct caption, c; auto|]. eapply Forall2_weaken; [|exact S2]. intros r r' S. eapply Forall2_weaken; [|exact S].
    intros k k' S'. eapply Forall2_weaken; [|exact S']. intros c1 c2 [X Y]. split; auto.
  - intros (l & E & S). eauto.
  - intros [].
Qed.

(** Relations between the parts of lines that keep the frame *)
Section Rows.
Variable R : inline -> inline -> Prop.
Hypothesis W : forall s x, R (Words s) x -> x = Words s.

Lemma rows_of_list : forall l, Forall (fun i => forall above rs, Forall2 (Forall2 R) (item_rows above i) rs -> exists i', rs = item_rows above i' /\ item_rel (Forall2 R) i i') l ->
  forall above rs, Forall2 (Forall2 R) (concat (map (item_rows above) l)) rs -> exists l', rs = concat (map (item_rows above) l') /\ Forall2 (item_rel (Forall2 R)) l l'.
Proof.
  intros l H above. induction H as [|i l H F IH]; intros rs S; cbn [map concat] in S; [inversion S; subst; exists []; auto|]. apply Forall2_app_inv_l in S as (r1 & r2 & S1 & S2 & ->).
  destruct (H _ _ S1) as (i' & -> & I). destruct (IH _ S2) as (l' & -> & L). exists (i' :: l'). auto.
Qed.

Lemma rows_of_item : forall i above rs, Forall2 (Forall2 R) (item_rows above i) rs -> exists i', rs = item_rows above i' /\ item_rel (Forall2 R) i i'.
Proof.
  refine (item_rect' _ _). intros m x below IH above rs S. cbn [item_rows] in S. inversion S as [|? r ? rs' S1 S2]; subst. inversion S1 as [|? w ? x' S3 S4]; subst. apply W in S3. subst w.
  assert (X : exists below', rs' = concat (map (fun l => concat (map (item_rows (above ++ [sign m])) l)) below') /\ Forall2 (Forall2 (item_rel (Forall2 R))) below below').
  { clear S S1 S4. revert rs' S2. induction IH as [|l below H F IHb]; intros rs' S; cbn [map concat] in S; [inversion S; subst; exists []; auto|]. apply Forall2_app_inv_l in S as (r1 & r2 & S1 & S2 & ->).
    destruct (rows_of_list l H _ _ S1) as (l' & -> & L). destruct (IHb _ S2) as (b' & -> & B). exists (l' :: b'). auto. }
  destruct X as (below' & -> & B). exists (Item m x' below'). split; auto. constructor; auto.
Qed.

Lemma row_of_cells : forall cells r, Forall2 R (cells_row cells) r -> exists cells', r = cells_row cells' /\ Forall2 (cell_rel (Forall2 R)) cells cells'.
Proof.
  intros [|c cells] r S; cbn [cells_row] in S; [inversion S; subst; exists []; auto|]. apply Forall2_app_inv_l in S as (r1 & r2 & S1 & S2 & ->).
  assert (X : exists cells', r2 = concat (map (fun c => Words (!" " ++ cell_sign c ++ cell_start c ++ !" ") :: snd c) cells') /\ Forall2 (cell_rel (Forall2 R)) cells cells').
  { clear S1. revert r2 S2. induction cells as [|d cells IH]; intros r2 S; cbn [map concat] in S; [inversion S; subst; exists []; auto|]. apply Forall2_app_inv_l in S as (r3 & r4 & S1 & S2 & ->).
    inversion S1 as [|? w ? x S3 S4]; subst. apply W in S3. subst w. destruct (IH _ S2) as (cells' & -> & C). exists ((fst d, x) :: cells'). split; auto. constructor; auto. split; auto. }
  destruct X as (cells' & -> & C). destruct c as [h [|i text]]; cbn [snd] in S1.
  - inversion S1 as [|? w ? z S3 S4]; subst. apply W in S3. subst w. inversion S4; subst. exists ((h, []) :: cells'). split; auto. constructor; auto. split; cbn; auto.
  - inversion S1 as [|? w ? z S3 S4]; subst. apply W in S3. subst w. exists ((h, z) :: cells'). split; [|constructor; auto; split; auto]. inversion S4; subst. auto.
Qed.

Lemma grid_rows_of : forall rows rs, Forall2 (Forall2 R) (grid_rows rows) rs -> exists rows', rs = grid_rows rows' /\ Forall2 (Forall2 (Forall2 (cell_rel (Forall2 R)))) rows rows'.
Proof.
  unfold grid_rows. induction rows as [|row rows IH]; intros rs S; cbn [map concat] in S; [inversion S; subst; exists []; auto|]. cbn [app] in S. inversion S as [|? r1 ? r2 S1 S2]; subst.
  inversion S1 as [|? w ? z S3 S4]; subst. apply W in S3. subst w. inversion S4; subst. apply Forall2_app_inv_l in S2 as (r3 & r4 & S2 & S5 & ->). destruct (IH _ S5) as (rows' & -> & Rr).
  assert (X : exists row', r3 = map cells_row row' /\ Forall2 (Forall2 (cell_rel (Forall2 R))) row row').
  { clear - S2 W. revert r3 S2. induction row as [|cells row IH]; intros r3 S; inversion S as [|? r ? rs S1 S2]; subst; [exists []; auto|]. destruct (row_of_cells _ _ S1) as (cells' & -> & C). destruct (IH _ S2) as (row' & -> & Rr). exists (cells' :: row'). auto. }
  destruct X as (row' & -> & X). exists (row' :: rows'). auto.
Qed.

Lemma rows_of_block : forall b ls, no_heading b -> Forall2 (Forall2 R) (lines_of b) ls -> exists b', ls = lines_of b' /\ block_rel (Forall2 R) b b'.
Proof.
  intros [n title|lines|items|a caption rows|p|fn ft fa fx] ls N S; cbn [lines_of block_rel] in *; [destruct N|..].
  - exists (Paragraph ls). eauto.
  - destruct (rows_of_list items) with (above := @nil ascii) (rs := ls) as (items' & -> & L); auto; [apply Forall_forall; intros i _; apply rows_of_item|]. exists (Items items'). eauto.
  - inversion S as [|? r1 ? r2 S1 S2]; subst. inversion S1 as [|? w ? z S3 S4]; subst. apply W in S3. subst w. inversion S4; subst. apply Forall2_app_inv_l in S2 as (r3 & r4 & S2 & S5 & ->).
    apply Forall2_app_inv_l in S5 as (r5 & r6 & S5 & S6 & ->). inversion S6 as [|? r7 ? r8 S7 S8]; subst. inversion S8; subst. inversion S7 as [|? w ? z S9 S10]; subst. apply W in S9. subst w. inversion S10; subst.
    destruct (grid_rows_of _ _ S5) as (rows' & -> & Rr). destruct caption as [c|]; cbn [caption_rows] in S2.
    + inversion S2 as [|? r ? rs S11 S12]; subst. inversion S12; subst. inversion S11 as [|? w ? c' S13 S14]; subst. apply W in S13. subst w. exists (Grid a (Some c') rows'). split; auto. exists (Some c'), rows'. auto.
    + inversion S2; subst. exists (Grid a None rows'). split; auto. exists None, rows'. auto.
  - inversion S as [|? r ? rs S1 S2]; subst. inversion S2; subst. exists (Paragraph [r]). split; auto. exists r. auto.
  - destruct N.
Qed.
End Rows.

(** ** Headings *)

Lemma space_alone : forall p, In p space_runes -> In " "%char p -> p = [" "%char].
Proof.
  assert (H : forallb (fun p => negb (existsb (Ascii.eqb " ") p) || str_eqb p [" "%char]) space_runes = true) by (vm_compute; reflexivity).
  intros p I J. rewrite forallb_forall in H. specialize (H p I). apply orb_true_iff in H as [H|H]; [|apply str_eqb_eq; auto].
  apply negb_true_iff in H. assert (X : existsb (Ascii.eqb " ") p = true) by (apply existsb_exists; exists " "%char; split; auto; apply Ascii.eqb_refl). congruence.
Qed.

Lemma space_blank : blank !" ".
Proof. rewrite <- (app_nil_r !" "). apply made_cons; [vm_compute; auto 10|constructor]. Qed.

Lemma trim_spaces : forall s, s <> [] -> trim_space s = s -> trim_space (!" " ++ s ++ !" ") = s.
Proof.
  intros s N T. apply trimmed_iff in T as [A B]. unfold trim_space. rewrite trim_left_blank by apply space_blank.
  rewrite trim_left_fix.
  - rewrite trim_right_blank by apply space_blank. apply trim_right_fix. auto.
  - intros p I. destruct (has_prefix p (s ++ !" ")) eqn:E; auto. exfalso. apply has_prefix_spec in E as (x & E). apply app_eq_app in E as (m & [[-> H]|[-> H]]).
    + specialize (A p I). rewrite has_prefix_app in A. discriminate.
    + destruct m as [|c m]; [rewrite app_nil_r in I; specialize (A s I); assert (has_prefix s s = true) by (apply has_prefix_spec; exists []; rewrite app_nil_r; auto); congruence|].
      assert (c = " "%char) by (cbn [app] in H; congruence). subst c. specialize (space_alone _ I). rewrite in_app_iff. intros Z. specialize (Z ltac:(right; left; auto)).
      destruct s as [|d s]; [contradiction|]. destruct s; discriminate.
Qed.

(** A first character that is no white space *)
Lemma trim_first : forall c s, solid c = true -> exists x, trim_space (c :: s) = c :: x.
Proof.
  intros c s S. destruct (trim_space_spec (c :: s)) as (l & r & E & L1 & L2 & _). destruct l as [|d l]; [|cbn [app] in E; injection E as -> E; eapply (blank_no_solid _ d) in L1; [congruence|left; auto]].
  cbn [app] in E. destruct (trim_space (c :: s)) as [|d x] eqn:X.
  - cbn [app] in E. subst r. eapply (blank_no_solid _ c) in L2; [congruence|left; auto].
  - cbn [app] in E. injection E as -> E. eauto.
Qed.

Definition no_equals_start (s : str) : Prop := forall x, trim_space s <> equal_sign :: x.
Lemma first_no_equals : forall c s, solid c = true -> c <> equal_sign -> no_equals_start (c :: s).
Proof. intros c s S N x E. destruct (trim_first c s S) as (y & Y). congruence. Qed.
Lemma start_no_equals : forall s, no_block_start s -> no_equals_start s.
Proof. intros s N x E. apply (N _ _ E). left. auto. Qed.
Lemma no_equals_matches : forall line n, no_equals_start line -> 1 <= n -> matches n line = false.
Proof.
  intros line n H Hn. unfold matches. destruct (has_prefix (equals n) (trim_space line)) eqn:E; [|reflexivity].
  apply has_prefix_spec in E as (x & E). destruct n as [|n]; [lia|]. exfalso. apply (H (equals n ++ x)). exact E.
Qed.

(** The signs of list items *)
Definition signs : str := !"*#;:".
Lemma sign_In : forall m, In (sign m) signs.
Proof. intros []; cbn; auto 6. Qed.
Lemma signs_solid : forall c, In c signs -> solid c = true.
Proof. intros c I. cbn in I. repeat (destruct I as [<-|I]; [reflexivity|]). contradiction. Qed.

Lemma good_rows : forall (Q : list_mark -> list inline -> Prop) (T : list inline -> Prop),
  (forall above m x, Forall (fun c => In c signs) above -> Q m x -> T (Words (above ++ [sign m] ++ !" ") :: x)) ->
  forall i above, Forall (fun c => In c signs) above -> item_good Q i -> Forall T (item_rows above i).
Proof.
  intros Q T H. refine (item_rect' _ _). intros m x below IH above A G. inversion G as [? ? ? G1 G2 G3]; subst. cbn [item_rows]. constructor; [auto|].
  assert (A' : Forall (fun c => In c signs) (above ++ [sign m])) by (apply Forall_app; split; [auto|constructor; [apply sign_In|constructor]]).
  rewrite Forall_forall in IH, G2 |- *. intros r I. apply in_concat in I as (rs & I1 & I2). apply in_map_iff in I1 as (l & <- & L). apply in_concat in I2 as (rs & I3 & I4). apply in_map_iff in I3 as (j & <- & J).
  specialize (G2 _ L). inversion G2 as [k items G5 _]; subst. rewrite Forall_forall in G5. specialize (IH _ L). rewrite Forall_forall in IH.
  specialize (IH j J _ A' (G5 j J)). rewrite Forall_forall in IH. auto.
Qed.

Lemma list_rows : forall (Q : list_mark -> list inline -> Prop) (T : list inline -> Prop),
  (forall above m x, Forall (fun c => In c signs) above -> Q m x -> T (Words (above ++ [sign m] ++ !" ") :: x)) ->
  forall l, list_good Q l -> Forall T (concat (map (item_rows []) l)).
Proof.
  intros Q T H l G. inversion G as [i items F _]; subst. apply Forall_concat. apply Forall_map. eapply Forall_impl; [|exact F]. intros j J. apply (good_rows Q T H); auto.
Qed.

(** All rows of a block *)
Record row_fine (r : list inline) : Prop := {
  row_atoms : Forall atom_ok r;
  row_line : ~ In nl_char (line_wikitext r);
  row_start : no_equals_start (line_wikitext r) }.

Lemma loose_words : forall s, s <> [] -> plain s -> (forall c, In c s -> ~ In c !"[]<>") -> atom_ok (Words s).
Proof. intros s N P H. split; [|auto]. split; auto. intros c I J. apply (H c J I). Qed.

Lemma fine_row : forall r, fine r -> row_fine r.
Proof. intros r F. constructor; [apply F|apply F|apply start_no_equals; apply F]. Qed.

Lemma framed_row : forall c s x, solid c = true -> c <> equal_sign -> c <> nl_char -> plain (c :: s) -> (forall d, In d (c :: s) -> ~ In d (!"[]<>" ++ nl)) ->
  Forall atom_ok x -> ~ In nl_char (line_wikitext x) -> row_fine (Words (c :: s) :: x).
Proof.
  intros c s x S N M Pl H A L. constructor.
  - constructor; auto. apply loose_words; [discriminate|auto|]. intros d I J. apply (H d I). apply in_app_iff. auto.
  - rewrite line_cons. intros I. apply in_app_iff in I as [I|I]; auto. apply (H _ I). apply in_app_iff. right. left. auto.
  - rewrite line_cons. cbn [inline_wikitext app]. apply first_no_equals; auto.
Qed.

Lemma cell_sign_char : forall c d, In d (cell_sign c) -> d = "|"%char \/ d = "!"%char.
Proof. intros [[[] a] x] d I; cbn in I; intuition. Qed.
Lemma cell_sign_shape : forall c, exists d, cell_sign c = [d] /\ (d = "|"%char \/ d = "!"%char).
Proof. intros [[[] a] x]; cbn; eauto. Qed.
Lemma cell_start_char : forall h c d, kind_ok h (fst c) -> In d (cell_start c) -> d = "|"%char \/ d = "!"%char \/ letter d.
Proof.
  intros h [[k a] x] d (_ & _ & W & _) I. cbn [fst cell_attributes] in *. unfold cell_start in I. cbn [fst cell_attributes] in I. apply in_app_iff in I as [I|I]; [apply cell_sign_char in I; tauto|].
  assert (L : letter " "%char) by (intros J; cbn in J; intuition discriminate). destruct a as [|b a]; [destruct I|]. apply in_app_iff in I as [I|I]; [cbn in I; intuition (subst; auto)|].
  apply in_app_iff in I as [I|I]; [destruct W as [W _]; rewrite Forall_forall in W; auto|cbn in I; intuition (subst; auto)].
Qed.
Lemma cell_start_shape : forall c, exists d s, cell_start c = d :: s /\ (d = "|"%char \/ d = "!"%char).
Proof. intros c. unfold cell_start. destruct (cell_sign_shape c) as (d & -> & D). cbn [app]. eauto. Qed.

Lemma cell_sign_plain : forall c, plain (cell_sign c).
Proof. intros c. apply plain_without. intros I. apply cell_sign_char in I as [I|I]; discriminate. Qed.
Lemma cell_start_plain : forall h c, kind_ok h (fst c) -> plain (cell_start c).
Proof.
  intros h [[k a] x] (_ & _ & [_ W] & _). unfold cell_start. apply plain_app; [apply cell_sign_plain|]. cbn [fst cell_attributes] in *. destruct a as [|b a]; [apply plain_without; intros []|].
  apply plain_app; [marks|]. apply plain_app; [exact W|marks].
Qed.

Lemma cells_rest : forall h cells, Forall (fun c : grid_cell => kind_ok h (fst c) /\ fine (snd c)) cells ->
  Forall atom_ok (concat (map (fun c => Words (!" " ++ cell_sign c ++ cell_start c ++ !" ") :: snd c) cells)) /\
  ~ In nl_char (line_wikitext (concat (map (fun c => Words (!" " ++ cell_sign c ++ cell_start c ++ !" ") :: snd c) cells))).
Proof.
  intros h. induction 1 as [|c cells [K C] F [I1 I2]]; cbn [map concat]; [split; [constructor|intros []]|].
  assert (W : forall d, In d (!" " ++ cell_sign c ++ cell_start c ++ !" ") -> letter d \/ d = "|"%char \/ d = "!"%char).
  { assert (L : letter " "%char) by (intros J; cbn in J; intuition discriminate). intros d. rewrite !in_app_iff. intros [I|[I|[I|I]]]; [|apply cell_sign_char in I; tauto|apply (cell_start_char h) in I; tauto|]; cbn in I; intuition (subst; auto). }
  split.
  - apply Forall_app. split; auto. constructor; [|apply C]. apply loose_words; [discriminate|apply plain_app; [marks|apply plain_app; [apply cell_sign_plain|apply plain_app; [apply (cell_start_plain h); auto|marks]]]|]. intros d I J. apply W in I as [I|[->| ->]]; [apply I; cbn in J |- *; intuition|cbn in J; intuition discriminate..].
  - rewrite line_app, line_cons. cbn [inline_wikitext]. rewrite !in_app_iff. rewrite <- !in_app_iff. intros I. apply in_app_iff in I as [I|I]; auto. apply in_app_iff in I as [I|I]; [|revert I; apply C].
    apply W in I as [I|[I|I]]; [apply I; cbn; auto 20|discriminate..].
Qed.

Lemma cells_row_fine : forall cells, cells_fine cells -> row_fine (cells_row cells).
Proof.
  intros cells (h & [(k & -> & K)|[N F]]).
  - cbn [cells_row map concat app snd]. assert (Z : forall d, In d (cell_start (k, [])) -> ~ In d (!"[]<>" ++ nl)).
    { intros d I J. apply (cell_start_char h) in I as [->|[->|I]]; auto; [cbn in J; intuition discriminate..|]. apply I. cbn in J |- *. intuition. }
    pose proof (cell_start_plain h (k, []) K) as Pl. destruct (cell_start_shape (k, [])) as (d & s & E & [->| ->]); rewrite E in *; apply framed_row; try reflexivity; try discriminate; auto.
  - destruct F as [|c cells [K [C _]] F]; [contradiction|]. destruct (cells_rest h cells) as [R1 R2]; [eapply Forall_impl; [|exact F]; intros k [Kk [Kf _]]; auto|]. cbn [cells_row].
    assert (S : snd c <> []) by apply C. destruct (snd c) as [|i text] eqn:E; [contradiction|]. cbn [app].
    assert (Z : forall d, In d (cell_start c ++ !" ") -> ~ In d (!"[]<>" ++ nl)).
    { intros d I J. apply in_app_iff in I as [I|I]; [|cbn in I, J; intuition (subst; discriminate)]. apply (cell_start_char h) in I as [->|[->|I]]; auto; [cbn in J; intuition discriminate..|]. apply I. cbn in J |- *. intuition. }
    assert (Pl : plain (cell_start c ++ !" ")) by (apply plain_app; [apply (cell_start_plain h); auto|marks]).
    destruct (cell_start_shape c) as (d & s & X & [->| ->]); rewrite X in *; cbn [app] in *; (apply framed_row; try reflexivity; try discriminate; auto);
      try (apply (Forall_app atom_ok (i :: text)); split; [apply C|auto]); change (i :: text ++ ?z) with ((i :: text) ++ z); rewrite line_app; intros I; apply in_app_iff in I as [I|I]; auto; revert I; apply C.
Qed.

Lemma block_rows : forall b, no_heading b -> block_fine b -> Forall row_fine (lines_of b).
Proof.
  intros [n title|lines|items|a caption rows|p|fn ft fa fx] N F; cbn [lines_of block_fine] in *; [destruct N|..].
  - destruct F as [_ F]. eapply Forall_impl; [|exact F]. intros l (L & _). apply fine_row. auto.
  - eapply list_rows; [|exact F]. intros above m x A [X _].
    assert (H : exists c s, above ++ [sign m] ++ !" " = c :: s /\ In c signs).
    { destruct A as [|c above C A]; [exists (sign m), !" "; split; [reflexivity|apply sign_In]|]. exists c, (above ++ [sign m] ++ !" "). auto. }
    destruct H as (c & s & E & C). assert (Z : forall d, In d (c :: s) -> In d signs \/ d = " "%char).
    { rewrite <- E. intros d. rewrite !in_app_iff. rewrite Forall_forall in A. intros [I|[I|I]]; auto; [left; cbn in I; destruct I as [<-|[]]; apply sign_In|right; cbn in I; intuition]. }
    rewrite E. apply framed_row; try apply X; [apply signs_solid; auto| | | |].
    + intros ->. cbn in C. intuition discriminate.
    + intros ->. cbn in C. intuition discriminate.
    + apply plain_without. intros I. apply Z in I as [I|I]; [cbn in I; intuition discriminate|discriminate].
    + intros d I J. apply Z in I as [I| ->]; [|cbn in J; intuition discriminate]. cbn in I, J. intuition (subst; discriminate).
  - destruct F as (A & C & R). constructor; [|apply Forall_app; split; [|apply Forall_app; split]].
    + destruct A as ([W W'] & _). apply framed_row; try reflexivity; try discriminate; auto; [apply (plain_app !"{|"); [marks|exact W']|]. intros d [<-|[<-|I]] J; [cbn in J; intuition discriminate..|]. rewrite Forall_forall in W. specialize (W d I). apply W. cbn in J |- *. intuition.
    + destruct caption as [c|]; cbn [caption_rows]; constructor; auto. destruct (C c eq_refl) as [X _]. apply framed_row; try reflexivity; try discriminate; try apply X; [marks|]. intros d I J. cbn in I, J. intuition (subst; discriminate).
    + unfold grid_rows. apply Forall_concat. apply Forall_map. eapply Forall_impl; [|exact R]. intros row Rw. constructor; [apply framed_row; try reflexivity; try discriminate; auto; [marks|]; intros d I J; cbn in I, J; intuition (subst; discriminate)|].
      apply Forall_map. eapply Forall_impl; [|exact Rw]. intros cells. apply cells_row_fine.
    + constructor; auto. apply framed_row; try reflexivity; try discriminate; auto; [marks|]. intros d I J. cbn in I, J. intuition (subst; discriminate).
  - constructor; auto. apply fine_row. auto.
  - destruct N.
Qed.

Lemma no_equals_contains : forall n s, 1 <= n -> ~ In equal_sign s -> contains (equals n) s = false.
Proof. intros [|n] s L N; [lia|]. apply contains_false. intros a b ->. apply N. apply in_app_iff. right. left. auto. Qed.

Lemma heading_row : forall n title, 1 <= n <= 6 -> fine title -> ~ In equal_sign (line_wikitext title) ->
  heading_line (equals n ++ !" " ++ line_wikitext title ++ !" " ++ equals n) n (!" " ++ line_wikitext title ++ !" ").
Proof.
  intros n title L F N. split; [lia|]. split; [discriminate|]. split.
  - right. intros [(x & X) _]. discriminate X.
  - exists [], []. split; [constructor|]. split; [constructor|]. rewrite app_nil_r, <- !app_assoc. auto.
Qed.

Lemma heading_unique : forall line n m title, heading_line line n title -> level_of m line -> n = m.
Proof.
  intros line n m title H (L & M & Max). destruct (Nat.lt_trichotomy n m) as [J|[J|J]]; auto.
  - rewrite (heading_max _ _ _ m H) in M; [discriminate|lia].
  - pose proof (heading_matches _ _ _ H) as X. destruct H as (Ln & _). rewrite Max in X; [discriminate|lia].
Qed.

Lemma heading_title_of : forall n title, 1 <= n <= 6 -> fine title -> ~ In equal_sign (line_wikitext title) ->
  title_of n (equals n ++ !" " ++ line_wikitext title ++ !" " ++ equals n) = line_wikitext title.
Proof.
  intros n title L F N. rewrite (heading_title _ _ _ (heading_row n title L F N)).
  - apply trim_spaces; [apply fine_text; auto|apply fine_trim; auto].
  - apply no_equals_contains; [lia|]. rewrite !in_app_iff. cbn. intuition discriminate.
Qed.

(** What the headings need *)
Definition title_fine (n : nat) (title : list inline) : Prop := 1 <= n <= 6 /\ fine title /\ ~ In equal_sign (line_wikitext title).
Definition row_plain (r : list inline) : Prop := ~ In nl_char (line_wikitext r) /\ no_equals_start (line_wikitext r).
Definition block_lined (b : block) : Prop :=
  match b with
  | Heading n title => title_fine n title
  | Footnotes n title a _ => title_fine n title /\ ReferenceSpec.attributes_ok a
  | _ => lines_of b <> [] /\ Forall row_plain (lines_of b)
  end.

Lemma fine_lined : forall b, block_fine b -> block_lined b.
Proof.
  intros b B. assert (G : no_heading b -> lines_of b <> [] /\ Forall row_plain (lines_of b)).
  { intros N. split; [apply lines_nonempty; auto|]. eapply Forall_impl; [|apply block_rows; eauto]. intros r R. split; apply R. }
  destruct b as [n title|lines|items|a caption rows|p|fn ft fa fx]; cbn [block_lined]; try (apply G; exact I); [exact B|]. destruct B as (B1 & B2 & _). split; auto.
Qed.

Lemma listing_no_newline : forall a, ReferenceSpec.attributes_ok a -> ~ In nl_char (listing a).
Proof.
  intros a [A _]. unfold listing, ReferenceSpec.element_text, ReferenceSpec.attributes_text. rewrite !in_app_iff. intros [I|[[I|I]|I]].
  - cbn in I. intuition discriminate.
  - apply in_concat in I as (x & X & I). apply in_map_iff in X as (y & <- & Y). rewrite Forall_forall in A. destruct (A y Y) as (A1 & _ & A2 & _). unfold ReferenceSpec.attribute_text in I.
    assert (V : ~ In nl_char (ReferenceSpec.attr_value y)) by (apply (A2 nl_char); cbn; auto 10). rewrite !in_app_iff in I. destruct I as [I|[I|[I|I]]].
    + cbn in I. intuition discriminate.
    + destruct A1 as [E|E]; rewrite E in I; cbn in I; intuition discriminate.
    + cbn in I. intuition discriminate.
    + destruct (ReferenceSpec.attr_quoted y); [|auto]. rewrite !in_app_iff in I. destruct I as [I|[I|I]]; auto; cbn in I; intuition discriminate.
  - apply repeat_spec in I. discriminate.
  - cbn in I. intuition discriminate.
Qed.

Lemma listing_start : forall a, no_equals_start (listing a).
Proof. intros a. unfold listing, ReferenceSpec.element_text. cbn [app]. apply first_no_equals; [reflexivity|discriminate]. Qed.

Lemma title_no_newline : forall n title, title_fine n title -> ~ In nl_char (equals n ++ !" " ++ line_wikitext title ++ !" " ++ equals n).
Proof.
  intros n title (L & B & _). rewrite !in_app_iff. pose proof (fine_line _ B). intros [I|[I|[I|[I|I]]]]; auto; try (apply repeat_spec in I; discriminate); cbn in I; intuition discriminate.
Qed.

Lemma lined_lines : forall b, block_lined b -> block_lines b <> [].
Proof.
  intros b B. rewrite <- lines_of_text. intros E. apply map_eq_nil in E. destruct b; cbn [block_lined] in B; try (destruct B; contradiction); discriminate.
Qed.

Lemma block_no_newline : forall b, block_lined b -> Forall (fun s => ~ In nl_char s) (block_lines b).
Proof.
  intros b B. assert (G : lines_of b <> [] /\ Forall row_plain (lines_of b) -> Forall (fun s => ~ In nl_char s) (block_lines b)).
  { intros [_ F]. rewrite <- lines_of_text. apply Forall_map. eapply Forall_impl; [|exact F]. intros r H. apply H. }
  destruct b as [n title|lines|items|a caption rows|p|fn ft fa fx]; cbn [block_lined] in B; try (apply G; exact B); cbn [block_lines].
  - constructor; auto. apply title_no_newline. auto.
  - destruct B as [B1 B2]. constructor; [apply title_no_newline; auto|]. constructor; auto. apply listing_no_newline. auto.
Qed.

Lemma doc_split : forall g doc, doc <> [] -> Forall block_lined doc -> split nl (line_wikitext (flat (doc_lines g doc))) = layout [] g (map block_lines doc).
Proof.
  intros g doc N F. rewrite flat_text. unfold doc_lines. rewrite layout_map, map_map. change (line_wikitext []) with (@nil ascii). rewrite (map_ext _ _ lines_of_text). apply split_join_single.
  - apply layout_nonempty; [intros E; apply map_eq_nil in E; auto|]. apply Forall_map. eapply Forall_impl; [|exact F]. apply lined_lines.
  - apply layout_Forall; [intros []|]. apply Forall_map. eapply Forall_impl; [|exact F]. apply block_no_newline.
Qed.

Lemma layout_In : forall A (e x : A) bs g, In x (layout e g bs) -> x = e \/ exists b, In b bs /\ In x b.
Proof.
  intros A e x bs. induction bs as [|b bs IH]; intros g I; [rewrite layout_nil in I; apply repeat_spec in I; auto|]. rewrite layout_cons in I. rewrite !in_app_iff in I. destruct I as [I|[I|I]].
  - apply repeat_spec in I. auto.
  - right. exists b. split; [left|]; auto.
  - destruct (IH _ I) as [->|(c & C1 & C2)]; auto. right. exists c. split; [right|]; auto.
Qed.

(** The lines that are headings *)
Lemma doc_titles : forall g doc, Forall block_lined doc -> forall line n, In line (layout [] g (map block_lines doc)) -> level_of n line -> exists l, fine l /\ title_of n line = line_wikitext l.
Proof.
  intros g doc F line n I L. assert (Z : no_equals_start line -> False) by (intros H; destruct L as (Ln & M & _); rewrite no_equals_matches in M; [discriminate|auto|lia]). apply layout_In in I as [->|(ls & I & J)].
  - exfalso. apply Z. intros x E. discriminate E.
  - apply in_map_iff in I as (b & <- & B). rewrite Forall_forall in F. specialize (F b B).
    assert (H : forall k title, title_fine k title -> line = equals k ++ !" " ++ line_wikitext title ++ !" " ++ equals k -> exists l, fine l /\ title_of n line = line_wikitext l).
    { intros k title (Lk & Ft & N) ->. pose proof (heading_unique _ _ _ _ (heading_row k title Lk Ft N) L). subst k. exists title. split; auto. apply heading_title_of; auto. }
    assert (G : lines_of b <> [] /\ Forall row_plain (lines_of b) -> exists l, fine l /\ title_of n line = line_wikitext l).
    { intros [_ Fr]. exfalso. rewrite <- lines_of_text in J. apply in_map_iff in J as (r & <- & J). rewrite Forall_forall in Fr. destruct (Fr _ J) as [_ H']. auto. }
    destruct b as [k title|lines|items|a caption rows|p|fn ft fa fx]; cbn [block_lined] in F; try (apply G; exact F); cbn [block_lines] in J.
    + destruct J as [<-|[]]. eapply H; eauto.
    + destruct F as [F1 F2]. destruct J as [<-|[<-|[]]]; [eapply H; eauto|]. exfalso. apply Z. apply listing_start.
Qed.

(** After the headings *)
Definition title_key (t : Tokenizer) (n : nat) (title : list inline) (key : str) : Prop :=
  exists title', In (key, HeadingToken (line_wikitext title') n) (tokenMap t) /\ Forall2 (shown t) title title'.
Definition headed (t : Tokenizer) (b : block) (ls : list (list inline)) : Prop :=
  match b with
  | Heading n title => exists key, ls = [[Words key]] /\ title_key t n title key
  | Footnotes n title a _ => exists key, ls = [[Words key]; [Words (listing a)]] /\ title_key t n title key
  | _ => ls = lines_of b
  end.

(** After the footnotes: the list of footnotes *)
Definition defined (t : Tokenizer) (key : str) (p : nat * list inline) : Prop :=
  exists text', In (key, RefDefinitionToken (fst p) (line_wikitext text')) (tokenMap t) /\ Forall2 (shown t) (snd p) text'.
Definition notes_keys (t : Tokenizer) (n : nat) (title : list inline) (texts : list (nat * list inline)) (ls : list (list inline)) : Prop :=
  exists key keys, ls = [Words key] :: map (fun k => [Words k]) keys /\ title_key t n title key /\ Forall2 (defined t) keys texts.
Definition keyed (t : Tokenizer) (b : block) (ls : list (list inline)) : Prop :=
  match b with
  | Heading n title => exists key, ls = [[Words key]] /\ title_key t n title key
  | Footnotes n title _ texts => notes_keys t n title texts ls
  | _ => ls = lines_of b
  end.

Definition ready (t : Tokenizer) (b : block) (ls : list (list inline)) : Prop :=
  match b with
  | Heading n title => exists key, ls = [[Words key]] /\ title_key t n title key
  | Footnotes n title _ texts => notes_keys t n title texts ls
  | _ => exists b', ls = lines_of b' /\ block_rel (Forall2 (shown t)) b b'
  end.

Lemma title_key_mono : forall t t' n title key, keeps t t' -> title_key t n title key -> title_key t' n title key.
Proof. intros t t' n title key K (x & I & S). exists x. split; [eapply keeps_In; eauto|eapply shown_lines; eauto]. Qed.

Lemma defined_mono : forall t t' key p, keeps t t' -> defined t key p -> defined t' key p.
Proof. intros t t' key p K (x & I & S). exists x. split; [eapply keeps_In; eauto|eapply shown_lines; eauto]. Qed.

Lemma notes_keys_mono : forall t t' n title texts ls, keeps t t' -> notes_keys t n title texts ls -> notes_keys t' n title texts ls.
Proof.
  intros t t' n title texts ls K (key & keys & E & T & D). exists key, keys. split; auto. split; [eapply title_key_mono; eauto|]. eapply Forall2_weaken; [|exact D]. intros. eapply defined_mono; eauto.
Qed.

Lemma title_key_In : forall t n title key, title_key t n title key -> exists v, In (key, v) (tokenMap t).
Proof. intros t n title key (x & I & _). eauto. Qed.

(** The lines of a list of footnotes are keys. *)
Lemma notes_keys_In : forall t n title texts ls, notes_keys t n title texts ls -> exists keys, ls = map (fun k => [Words k]) keys /\ keys <> [] /\ Forall (fun k => exists v, In (k, v) (tokenMap t)) keys.
Proof.
  intros t n title texts ls (key & keys & -> & T & D). exists (key :: keys). split; auto. split; [discriminate|]. constructor; [eapply title_key_In; eauto|].
  clear T. induction D as [|k p keys texts (x & I & _) D IH]; constructor; eauto.
Qed.

Section Run.
Hypothesis P : prefixes_ok cfg.
Variable fuel : nat.
Let rec := tokenizeContent cfg fuel.

Lemma lines_done_here : forall text t, ok false t -> (forall line n, In line (split nl text) -> level_of n line -> exists l, fine l /\ title_of n line = line_wikitext l) ->
  judge true t (parseHeadings rec text) (fun t' result => Forall2 (done rec 0 t') (split nl text) (split nl result)).
Proof.
  intros text t O H. apply (lines_done _ true (fun s => exists l, fine l /\ s = line_wikitext l)); auto.
  intros t0 s U (l & L & ->). eapply judge_weaken; [apply line_result; auto; apply ok_false; auto|auto].
Qed.

Lemma heading_key : forall t n title line', unique t -> 1 <= n <= 6 -> fine title -> ~ In equal_sign (line_wikitext title) ->
  done rec 0 t (equals n ++ !" " ++ line_wikitext title ++ !" " ++ equals n) line' ->
  title_key t n title line'.
Proof.
  intros t n title line' U L F N D. pose proof (heading_row n title L F N) as H. pose proof (heading_matches _ _ _ H) as M.
  destruct D as [[_ Z]|(m & Lm & Mm & Max & c & i & E & I & (t1 & t2 & U1 & R & K))]; [rewrite Z in M; [discriminate|lia]|].
  assert (n = m) by (apply (heading_unique _ _ m _ H); split; [lia|auto]). subst m. rewrite heading_title_of in R by auto.
  destruct (judge_holds _ _ _ _ _ (line_result P fuel title t1 F (ok_false _ U1)) _ _ R) as (O2 & _ & title' & S & ->).
  exists title'. split; auto. eapply shown_lines; eauto.
Qed.

Lemma start_done : forall t line line', no_equals_start line -> done rec 0 t line line' -> line' = line.
Proof.
  intros t line line' N [[-> _]|(n & L & M & _)]; auto. rewrite no_equals_matches in M; auto; [discriminate|lia].
Qed.

Lemma rows_done : forall t b rs, Forall row_plain (lines_of b) -> Forall2 (done rec 0 t) (block_lines b) rs -> rs = map line_wikitext (lines_of b).
Proof.
  intros t b rs F D. rewrite <- lines_of_text in D. revert rs D. induction F as [|r l H F IH]; intros rs D; inversion D as [|? r' ? rs' D1 D2]; subst; auto. cbn [map]. f_equal; auto.
  apply start_done in D1; auto. apply H.
Qed.

Lemma block_headed : forall t b rs, unique t -> block_lined b -> Forall2 (done rec 0 t) (block_lines b) rs -> exists ls, headed t b ls /\ rs = map line_wikitext ls.
Proof.
  intros t b rs U F D. assert (G : lines_of b <> [] /\ Forall row_plain (lines_of b) -> exists ls, ls = lines_of b /\ rs = map line_wikitext ls).
  { intros [_ R]. exists (lines_of b). split; auto. eapply rows_done; eauto. }
  destruct b as [n title|lines|items|a caption rows|p|fn ft fa fx]; cbn [block_lined headed] in *; try (apply G; exact F); cbn [block_lines] in D; inversion D as [|? key ? ? D1 D2]; subst.
  - inversion D2; subst. destruct F as (L & F & N). pose proof (heading_key t n title key U L F N D1) as T. exists [[Words key]]. split; [eauto|]. cbn [map]. rewrite one_text. auto.
  - inversion D2 as [|? x ? ? D3 D4]; subst. inversion D4; subst. destruct F as ((L & F & N) & _). pose proof (heading_key t fn ft key U L F N D1) as T. apply start_done in D3; [|apply listing_start]. subst x.
    exists [[Words key]; [Words (listing fa)]]. split; [eauto|]. cbn [map]. rewrite !one_text. auto.
Qed.

Lemma blocks_headed : forall g t doc rs, unique t -> Forall block_lined doc -> Forall2 (done rec 0 t) (layout [] g (map block_lines doc)) rs ->
  exists lss, Forall2 (headed t) doc lss /\ rs = layout [] g (map (map line_wikitext) lss).
Proof.
  intros g t doc rs U F D. apply (layout_Forall2 _ _ _ [] []) in D as (rss & -> & D).
  - assert (X : exists lss, Forall2 (headed t) doc lss /\ rss = map (map line_wikitext) lss); [|destruct X as (lss & H & ->); eauto].
    revert rss D. induction F as [|b doc B F IH]; intros rss D; inversion D as [|? r ? rss' D1 D2]; subst; [exists []; auto|].
    destruct (IH _ D2) as (lss & H & ->). destruct (block_headed t b r U B D1) as (ls & H1 & ->). exists (ls :: lss). split; auto.
  - intros x X. apply start_done in X; auto. intros y E. discriminate E.
Qed.

Lemma headings_pass : forall g doc t, doc <> [] -> Forall block_lined doc -> ok false t ->
  judge true t (parseHeadings rec (line_wikitext (flat (doc_lines g doc)))) (fun t' r => exists lss, Forall2 (headed t') doc lss /\ r = line_wikitext (flat (layout [] g lss))).
Proof.
  intros g doc t N F O. pose proof (doc_split g doc N F) as S. eapply judge_weaken; [apply lines_done_here; auto; rewrite S; apply doc_titles; auto|]. cbn beta. intros r t' O' G D.
  rewrite S in D. destruct (blocks_headed g t' doc _ (proj1 O') F D) as (lss & H & E). exists lss. split; auto.
  rewrite flat_text, layout_map. replace (layout (line_wikitext []) g (map (map line_wikitext) lss)) with (split nl r) by (rewrite E; reflexivity). symmetry. apply join_split. discriminate.
Qed.

(** ** Links *)

Lemma shown_word : forall t s x, shown t (Words s) x -> x = Words s.
Proof. intros t s x H. exact H. Qed.

Lemma words_shown : forall t keys ls', Forall2 (Forall2 (shown t)) (map (fun k => [Words k]) keys) ls' -> ls' = map (fun k => [Words k]) keys.
Proof.
  intros t keys. induction keys as [|k keys IH]; intros ls' F; inversion F as [|? x ? y X Y]; subst; auto. cbn [map]. f_equal; auto. inversion X as [|? z ? w A Z]; subst. inversion Z; subst. cbn [shown] in A. subst. auto.
Qed.

Lemma keyed_ready : forall t t' b ls ls', keeps t t' -> keyed t b ls -> Forall2 (Forall2 (shown t')) ls ls' -> ready t' b ls'.
Proof.
  intros t t' b ls ls' K H F. assert (G : no_heading b -> ls = lines_of b -> exists b', ls' = lines_of b' /\ block_rel (Forall2 (shown t')) b b').
  { intros N ->. apply (rows_of_block (shown t') (shown_word t')); auto. }
  destruct b as [n title|lines|items|a caption rows|p|fn ft fa fx]; cbn [keyed ready] in *; try (apply G; [exact I|exact H]).
  - destruct H as (key & -> & T). apply (words_shown t' [key]) in F. subst ls'. exists key. split; auto. eapply title_key_mono; eauto.
  - destruct H as (key & keys & -> & T & D). apply (words_shown t' (key :: keys)) in F. subst ls'. eapply notes_keys_mono; [exact K|]. exists key, keys. auto.
Qed.

Lemma rows_atoms : forall b, no_heading b -> block_fine b -> Forall (Forall atom_ok) (lines_of b).
Proof. intros b N F. eapply Forall_impl; [|apply block_rows; eauto]. intros r H. apply H. Qed.

Lemma key_atom_ok : forall t k v, unique t -> In (k, v) (tokenMap t) -> atom_ok (Words k).
Proof. intros t k v U I. split; [apply inert_loose; apply atom_inert|apply atom_nonempty]; eapply state_key; eauto. Qed.

Lemma keyed_atoms : forall t b ls, unique t -> block_fine b -> keyed t b ls -> Forall (Forall atom_ok) ls.
Proof.
  intros t b ls U F H. destruct b as [n title|lines|items|a caption rows|p|fn ft fa fx] eqn:E; cbn [keyed] in *; try (subst ls; apply rows_atoms; [exact I|auto]).
  - destruct H as (key & -> & T). apply title_key_In in T as (v & I). constructor; [|constructor]. constructor; [|constructor]. eapply key_atom_ok; eauto.
  - apply notes_keys_In in H as (keys & -> & _ & K). apply Forall_map. eapply Forall_impl; [|exact K]. intros k (v & I). constructor; [|constructor]. eapply key_atom_ok; eauto.
Qed.

Lemma newline_atom : atom_ok (Words nl).
Proof. split; [|discriminate]. split; [|marks]. intros c I J. cbn in I, J. intuition (subst; discriminate). Qed.

Lemma links_middle : forall C g doc lss t (k : str -> M C) Q, Forall block_fine doc -> ok false t -> Forall2 (keyed t) doc lss ->
  (forall lss' t', ok false t' -> grows t t' -> Forall2 (ready t') doc lss' -> judge true t' (k (line_wikitext (flat (layout [] g lss')))) Q) ->
  judge true t (
    do! content := parseInternalLinks cfg rec (line_wikitext (flat (layout [] g lss))) in
    do! content := parseGalleries cfg content in
    do! content := parseImageMaps cfg content in
    do! content := parseImages cfg rec content in
    do! content := parseExternalLinks cfg rec content in
    do! content := parseMath content in
    k content) Q.
Proof.
  intros C g doc lss t k Q F O H K. apply (rest_middle P fuel); auto.
  - apply flat_Forall; [apply newline_atom|]. apply layout_Forall; [constructor|]. clear K. revert F. induction H as [|b ls doc lss H1 H2 IH]; intros F; constructor; inversion F; subst; auto.
    eapply keyed_atoms; eauto. apply O.
  - intros l' t' O' G S. apply flat_Forall2 in S as (ls & -> & S); [|intros x X; exact X].
    apply (layout_Forall2 _ _ _ [] []) in S as (lss' & -> & S); [|intros x X; inversion X; auto]. apply K; auto.
    clear K F. revert lss' S. induction H as [|b ls doc lss H1 H2 IH]; intros lss' S; inversion S as [|? x ? y X Y]; subst; constructor; auto.
    eapply keyed_ready; eauto. apply grows_keeps. auto.
Qed.
End Run.

(** ** After the links *)

Lemma ready_mono : forall t t' b ls, keeps t t' -> ready t b ls -> ready t' b ls.
Proof.
  intros t t' b ls K H. assert (M : forall x x', Forall2 (shown t) x x' -> Forall2 (shown t') x x') by (intros; eapply shown_lines; eauto).
  assert (G : (exists b', ls = lines_of b' /\ block_rel (Forall2 (shown t)) b b') -> exists b', ls = lines_of b' /\ block_rel (Forall2 (shown t')) b b') by (intros (b' & E & S); exists b'; split; auto; eapply block_rel_mono; eauto).
  destruct b as [n title|lines|items|a caption rows|p|fn ft fa fx]; cbn [ready] in *; try (apply G; exact H).
  - destruct H as (k & E & S). exists k. split; auto. eapply title_key_mono; eauto.
  - eapply notes_keys_mono; eauto.
Qed.

Lemma shown_absent : forall t l l' c, unique t -> key_char c = false -> Forall2 (shown t) l l' -> ~ In c (line_wikitext l) -> ~ In c (line_wikitext l').
Proof.
  intros t l l' c U K F. induction F as [|i i' l l' H F IH]; intros N; auto. rewrite line_cons in N |- *. intros I. apply in_app_iff in I as [I|I]; [|revert I; apply IH; intros J; apply N; apply in_app_iff; auto].
  assert (Z : forall key v, In (key, v) (tokenMap t) -> ~ In c key).
  { intros key v J X. pose proof (state_key _ _ _ U J) as A. apply atom_chars in A. rewrite Forall_forall in A. rewrite (A _ X) in K. discriminate. }
  destruct i as [s|k|a lb|u lb|f|p|nn nr]; cbn [shown] in H; [| |destruct H as (key & b & -> & _ & J)|destruct H as (key & -> & J)|destruct H as (key & -> & J)|destruct H as (key & -> & p' & J & _)|destruct H as (key & -> & J)].
  - subst. apply N. apply in_app_iff. auto.
  - destruct H.
  - revert I. cbn [inline_wikitext]. eapply Z; eauto.
  - revert I. cbn [inline_wikitext]. eapply Z; eauto.
  - revert I. cbn [inline_wikitext]. eapply Z; eauto.
  - revert I. cbn [inline_wikitext]. eapply Z; eauto.
  - revert I. cbn [inline_wikitext]. eapply Z; eauto.
Qed.

(** Blocks that only consist of text and keys *)
Definition plain_text (l : list inline) : Prop := fine l /\ Forall only_words l.
Definition item_plain (m : list_mark) (l : list inline) : Prop := plain_text l /\ (m = Term -> ~ In ":"%char (line_wikitext l)).
Definition cell_plain (l : list inline) : Prop := plain_text l /\ ~ In "!"%char (line_wikitext l).
Definition cells_plain (cells : list grid_cell) : Prop := exists h, (exists k, cells = [(k, [])] /\ kind_ok h k) \/ (cells <> [] /\ Forall (fun c => kind_ok h (fst c) /\ cell_plain (snd c)) cells).
Definition block_plain (b : block) : Prop :=
  match b with
  | Heading n title => plain_text title
  | Paragraph lines => lines <> [] /\ Forall plain_text lines
  | Items items => list_good item_plain items
  | Grid a caption rows => attributes_ok a /\ (forall c, caption = Some c -> cell_plain c) /\ Forall (Forall cells_plain) rows
  | Figure p => False
  | Footnotes _ _ _ _ => False
  end.

Lemma related_cells : forall t cells cells', unique t -> cells_fine cells -> Forall2 (cell_rel (Forall2 (shown t))) cells cells' -> cells_plain cells'.
Proof.
  intros t cells cells' U (h & [(k & -> & K)|[N F]]) R; exists h.
  - left. exists k. inversion R as [|? c ? l [E S] R2]; subst. inversion R2; subst. destruct c as [h' x]. cbn in E, S. subst. inversion S; subst. auto.
  - right. split; [intros ->; inversion R; subst; auto|]. clear N. revert F. induction R as [|c c' cells cells' [E S] R IH]; intros F; constructor; inversion F as [|? ? [F1 [F2 F3]] F4]; subst; auto.
    split; [rewrite E; auto|]. split; [eapply shown_fine; eauto|eapply shown_absent; eauto].
Qed.

Lemma related_plain : forall t b b', unique t -> block_fine b -> block_rel (Forall2 (shown t)) b b' -> block_plain b'.
Proof.
  intros t b b' U F R. destruct b as [n title|lines|items|a caption rows|p|fn ft fa fx]; cbn [block_fine block_rel] in *.
  - destruct R as (x & -> & S). cbn. eapply shown_fine; eauto. apply F.
  - destruct R as (x & -> & S). destruct F as [N F]. cbn. split; [intros ->; inversion S; subst; auto|]. clear N. revert F. induction S; intros F; constructor; inversion F as [|? ? (F1 & _) F2]; subst; auto. eapply shown_fine; eauto.
  - destruct R as (x & -> & S). cbn. eapply rel_good; [|exact S|exact F]. intros m l l' [G1 G2] S'. split; [eapply shown_fine; eauto|]. intros E. eapply shown_absent; eauto.
  - destruct R as (c & rs & -> & S1 & S2). destruct F as (A & C & F). cbn. split; auto. split.
    + intros c' ->. destruct caption as [c0|]; [|destruct S1]. destruct (C c0 eq_refl). split; [eapply shown_fine; eauto|eapply shown_absent; eauto].
    + clear - U S2 F. revert F. induction S2 as [|row row' rows rows' S1 S2 IH]; intros F; constructor; inversion F as [|? ? F1 F2]; subst; auto. clear - U S1 F1. revert F1.
      induction S1 as [|cells cells' row row' S1 S2 IH]; intros F1; constructor; inversion F1; subst; auto. eapply related_cells; eauto.
  - destruct R as (x & -> & S). cbn. split; [discriminate|]. constructor; auto. eapply shown_fine; eauto.
  - destruct R.
Qed.
End Doc.
