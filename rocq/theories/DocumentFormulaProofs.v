(** * The formulas of a document: there is no HTML without all of their pictures *)

From Coq Require Import Ascii String.
From Coq Require Import List Arith NArith Bool Lia.
From Verif Require Import GoStr GoStrFacts ConfigModel TokenModel TokenSpec TokenProofs ExpandModel HtmlModel HtmlFuelProofs.
From Verif Require Import PassSpec FormattingSpec DocumentSpec DocumentLineProofs DocumentRunProofs DocumentBlockProofs DocumentListProofs DocumentGridProofs DocumentPassProofs DocumentStartProofs DocumentHtmlProofs.
Import ListNotations.
Local Open Scope list_scope.

Lemma join_long : forall sep (x : str) (l : list str), In x l -> length x <= length (join sep l).
Proof.
  intros sep x l. induction l as [|y l IH]; intros I; [destruct I|]. destruct l as [|z l].
  - destruct I as [->|[]]. auto.
  - rewrite join_more, !app_length. destruct I as [->|I]; [lia|]. specialize (IH I). lia.
Qed.

Section Pictures.
Variable cfg : configuration.
Variable pictures : str -> str * str * str * str.
Variable f : str.
Let k := length (formula_html pictures f).

Lemma line_long : forall l o, In f (line_formulas l) -> k <= length (line_html cfg pictures o l).
Proof.
  induction l as [|i l IH]; intros o I; [destruct I|]. unfold line_formulas in I. cbn [map concat] in I. apply in_app_iff in I as [I|I].
  - destruct i as [s|q|a lb|u lb|g|p|nn nr]; try (destruct I; fail). destruct I as [->|[]]. cbn [line_html]. rewrite app_length. unfold k. lia.
  - destruct i as [s|q|a lb|u lb|g|p|nn nr]; cbn [line_html]; rewrite ?app_length; [specialize (IH o I)|specialize (IH (snd (toggle o q)) I)|specialize (IH o I)..]; lia.
Qed.

Lemma item_element_long : forall m x, length x <= length (item_element m x).
Proof. intros [] x; cbn [item_element]; unfold element, division; rewrite !app_length; lia. Qed.

Lemma list_element_long : forall l x, length x <= length (list_element l x).
Proof. intros [|[[] w b] l] x; cbn [list_element]; unfold element, division; rewrite !app_length; lia. Qed.

Lemma in_parts : forall A (g : A -> list str) l, In f (concat (map g l)) -> exists x, In x l /\ In f (g x).
Proof. intros A g l I. apply in_concat in I as (y & J & I). apply in_map_iff in J as (x & <- & J). eauto. Qed.

Lemma item_long : forall i, In f (item_formulas i) -> k <= length (item_html cfg pictures i).
Proof.
  refine (item_rect' _ _). intros m w below IH I. cbn [item_formulas item_html] in *. eapply Nat.le_trans; [|apply item_element_long]. rewrite !app_length. apply in_app_iff in I as [I|I].
  - apply (line_long w []) in I. pose proof (join_long nl (!" " ++ line_html cfg pictures [] w) ((!" " ++ line_html cfg pictures [] w) :: map (fun l => list_element l (nl ++ join nl (map (item_html cfg pictures) l) ++ nl)) below) (or_introl eq_refl)) as J. rewrite app_length in J. lia.
  - apply in_parts in I as (l & L & I). apply in_parts in I as (i & Li & I). rewrite Forall_forall in IH. specialize (IH l L). rewrite Forall_forall in IH. specialize (IH i Li I).
    pose proof (join_long nl (item_html cfg pictures i) (map (item_html cfg pictures) l) (in_map _ _ _ Li)) as J1.
    pose proof (list_element_long l (nl ++ join nl (map (item_html cfg pictures) l) ++ nl)) as J2. rewrite !app_length in J2.
    pose proof (join_long nl (list_element l (nl ++ join nl (map (item_html cfg pictures) l) ++ nl)) ((!" " ++ line_html cfg pictures [] w) :: map (fun l => list_element l (nl ++ join nl (map (item_html cfg pictures) l) ++ nl)) below)
      (or_intror (in_map (fun l => list_element l (nl ++ join nl (map (item_html cfg pictures) l) ++ nl)) _ _ L))) as J3. lia.
Qed.

Lemma row_long : forall cells, In f (cells_formulas cells) -> k <= length (row_html cfg pictures cells).
Proof.
  intros cells I. unfold cells_formulas in I. apply in_parts in I as (c & C & I). apply (line_long (snd c) []) in I.
  assert (J : k <= length (cell_html cfg pictures c)) by (unfold cell_html; destruct (is_heading (fst c)); unfold cell_element; rewrite !app_length; lia).
  pose proof (join_long nl _ _ (in_map (cell_html cfg pictures) _ _ C)) as J1. unfold row_html, element. rewrite !app_length. lia.
Qed.

Lemma block_long : forall b, In f (block_formulas b) -> k <= length (block_html cfg pictures b).
Proof.
  intros [n title|lines|items|a caption rows|p|fn ft fa fx] I; cbn [block_formulas block_html] in *.
  - apply (line_long title []) in I. unfold element. rewrite !app_length. lia.
  - apply in_parts in I as (l & L & I). apply (line_long l []) in I. pose proof (join_long nl _ _ (in_map (line_html cfg pictures []) _ _ L)). lia.
  - apply in_parts in I as (i & L & I). apply item_long in I. unfold list_html. eapply Nat.le_trans; [|apply list_element_long]. rewrite !app_length. pose proof (join_long nl _ _ (in_map (item_html cfg pictures) _ _ L)). lia.
  - unfold division, element. rewrite !app_length. apply in_app_iff in I as [I|I].
    + destruct caption as [c|]; [|destruct I]. apply (line_long c []) in I. lia.
    + apply in_parts in I as (row & L & I). apply row_long in I. pose proof (join_long nl _ _ (in_map (fun row => row_html cfg pictures (concat row)) _ _ L)). cbv beta in *. lia.
  - destruct I.
  - assert (J : exists x, In x (element (!"h" ++ itoa fn) (line_html cfg pictures [] ft) :: map (fun p => !"[" ++ itoa (S (fst p)) ++ !"] " ++ line_html cfg pictures [] (snd p) ++ !"<br>") fx) /\ k <= length x).
    { apply in_app_iff in I as [I|I].
      - eexists. split; [left; reflexivity|]. apply (line_long ft []) in I. unfold element. rewrite !app_length. lia.
      - apply in_parts in I as (l & L & I). apply (line_long (snd l) []) in I. eexists. split; [right; apply (in_map (fun p => !"[" ++ itoa (S (fst p)) ++ !"] " ++ line_html cfg pictures [] (snd p) ++ !"<br>")); exact L|]. cbv beta. rewrite !app_length. lia. }
    destruct J as (x & J & K). pose proof (join_long nl _ _ J). lia.
Qed.

Lemma html_lines_in : forall doc b, In b doc -> In (block_html cfg pictures b) (html_lines cfg pictures doc).
Proof. induction doc as [|b' doc IH]; intros b I; [destruct I|]. cbn [html_lines]. destruct I as [->|I]; [left; auto|]. right. apply in_app_iff. right. auto. Qed.

Lemma document_long : forall doc, In f (document_formulas doc) -> k <= length (document_html cfg pictures doc).
Proof. intros doc I. apply in_parts in I as (b & B & I). apply block_long in I. unfold document_html. pose proof (join_long nl _ _ (html_lines_in doc b B)). lia. Qed.
End Pictures.

(** ** The HTML of a document *)

Lemma page_generated : forall cfg t doc bs fuel style title renderMath html, unique t -> 4 <= fuel -> Forall (@block_ok cfg) doc -> Forall2 (placed t) (map bold_block doc) bs ->
  generateHtml cfg renderMath (tokenMap t) fuel style title (join nl (breaks (map bold_block doc) bs)) = Ok html <->
  exists pictures, (forall f, In f (document_formulas doc) -> renderMath f = Ok (pictures f)) /\ html = HEADER style ++ nl ++ !"<h1>" ++ title ++ !"</h1>" ++ nl ++ document_html cfg pictures doc ++ FOOTER.
Proof.
  intros cfg t doc bs fuel style title renderMath html U L F Sh. split.
  - intros G. set (long := ([], repeat "x"%char (S (length html)), [], []) : str * str * str * str).
    set (pictures := fun f => match renderMath f with Ok x => x | _ => long end).
    pose proof (generateHtml_render cfg renderMath (fun f => Ok (pictures f)) ltac:(intros f x E; unfold pictures; rewrite E; reflexivity) _ _ _ _ _ _ G) as G2.
    rewrite (document_generated (fun f => Ok (pictures f)) t U pictures fuel style title doc bs L F) in G2; [|intros f _; reflexivity|exact Sh]. apply (f_equal (fun r => match r with Ok x => x | _ => [] end)) in G2. cbv beta iota in G2.
    exists pictures. split; [|symmetry; exact G2]. intros f I. unfold pictures. destruct (renderMath f) as [x| | |] eqn:E; auto; exfalso;
    pose proof (document_long cfg pictures f doc I) as X; assert (G3 := f_equal (@List.length ascii) G2); rewrite !app_length in G3;
    assert (Y : length html < length (formula_html pictures f)) by (unfold formula_html; unfold pictures at 1; rewrite E; unfold long; rewrite !app_length, repeat_length; lia); lia.
  - intros (pictures & R & ->). apply document_generated; auto.
Qed.
