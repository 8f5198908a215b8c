(** * Footnotes of documents *)

From Coq Require Import Ascii String.
From Coq Require Import List Arith Bool Lia Sorted.
From Verif Require Import GoStr GoStrFacts TextFacts TrimFacts UtilModel BracketModel ConfigModel TokenModel TokenSpec TokenProofs PassSpec MarkupSpec SafeSpec.
From Verif Require Import FormattingModel FormattingSpec FormattingProofs HeadingModel LinkModel ImageModel ReferenceModel ListModel TableModel ParagraphModel ParagraphSpec ParagraphProofs TokenizerModel JudgeProofs HeadingProofs LinkProofs NowikiProofs SafeTextProofs SafeProofs ShapeProofs.
From Verif Require Import MathQuietProofs PropPasses DocumentSpec DocumentSettledProofs DocumentLineProofs DocumentPictureProofs DocumentRunProofs DocumentBlockProofs DocumentListProofs DocumentGridProofs DocumentPassProofs DocumentStartProofs.
From Verif Require ReferenceSpec ReferenceProofs.
Import ListNotations.
Local Open Scope list_scope.

(** ** Texts of lists of footnotes are unique *)

Lemma sorted_same : forall (l l' : list (nat * str)), StronglySorted lt (map fst l) -> StronglySorted lt (map fst l') -> (forall x, In x l <-> In x l') -> l = l'.
Proof.
  induction l as [|[n b] l IH]; intros [|[n' b'] l'] S S' H; auto.
  - exfalso. apply (H (n', b')). left. auto.
  - exfalso. apply (H (n, b)). left. auto.
  - cbn [map fst] in S, S'. inversion S as [|? ? S1 S2]; subst. inversion S' as [|? ? S1' S2']; subst. rewrite Forall_forall in S2, S2'.
    assert (L : forall m c, In (m, c) l -> n < m) by (intros m c I; apply S2; apply in_map_iff; exists (m, c); auto). assert (L' : forall m c, In (m, c) l' -> n' < m) by (intros m c I; apply S2'; apply in_map_iff; exists (m, c); auto).
    assert (E : (n, b) = (n', b')).
    { destruct (proj1 (H (n, b))) as [X|X]; [left; auto|congruence|]. destruct (proj2 (H (n', b'))) as [Y|Y]; [left; auto|congruence|]. apply L' in X. apply L in Y. lia. }
    injection E as -> ->. f_equal. apply IH; auto. intros [m c]. split; intros I.
    + destruct (proj1 (H (m, c))) as [X|X]; [right; auto| |auto]. injection X as -> ->. apply L in I. lia.
    + destruct (proj2 (H (m, c))) as [X|X]; [right; auto| |auto]. injection X as -> ->. apply L' in I. lia.
Qed.

Lemma listed_same : forall before g texts texts', ReferenceSpec.listed before g texts -> ReferenceSpec.listed before g texts' -> texts = texts'.
Proof.
  intros before g texts texts' [S H] [S' H']. apply sorted_same; auto. intros [n b]. rewrite H, H'. reflexivity.
Qed.

(** ** The text behind the headings, in pieces *)

Inductive chunk :=
| Same (i : inline)
| Mark (n : nat) (r : ReferenceSpec.reference)
| Notes (a : ReferenceSpec.attributes) (texts : list (nat * list inline)).

Definition chunk_of (i : inline) : chunk := match i with Note n r => Mark n r | _ => Same i end.
Definition chunk_text (c : chunk) : str :=
  match c with Same i => inline_wikitext i | Mark _ r => ReferenceSpec.reference_text r | Notes a _ => nl ++ listing a end.
Definition chunks_text (cs : list chunk) : str := concat (map chunk_text cs).

Fixpoint cut (cs : list chunk) : str * list (ReferenceSpec.element * str) :=
  match cs with
  | [] => ([], [])
  | Same i :: cs' => (inline_wikitext i ++ fst (cut cs'), snd (cut cs'))
  | Mark _ r :: cs' => ([], (ReferenceSpec.Footnote r, fst (cut cs')) :: snd (cut cs'))
  | Notes a _ :: cs' => (nl, (ReferenceSpec.ShortList a, fst (cut cs')) :: snd (cut cs'))
  end.

Lemma cut_text : forall cs, ReferenceSpec.document_text (fst (cut cs)) (snd (cut cs)) = chunks_text cs.
Proof.
  unfold ReferenceSpec.document_text, chunks_text. induction cs as [|[i|n r|a x] cs IH]; auto; cbn [cut fst snd map concat chunk_text ReferenceSpec.element_text] in *.
  - rewrite <- app_assoc, IH. auto.
  - cbn [app]. rewrite <- app_assoc, IH. auto.
  - rewrite <- !app_assoc. f_equal. unfold listing. cbn [ReferenceSpec.element_text]. rewrite <- IH, <- !app_assoc. reflexivity.
Qed.

(** A list of footnotes follows its heading immediately, and two newlines or the end of the text follow the list. *)
Fixpoint ordered (prev : str) (cs : list chunk) : Prop :=
  match cs with
  | [] => True
  | Same i :: cs' => ordered (inline_wikitext i) cs'
  | Mark _ _ :: cs' => ordered [] cs'
  | Notes _ _ :: cs' => (exists x c, prev = x ++ [c] /\ c <> nl_char) /\ (cs' = [] \/ cs' = [Same (Words nl)] \/ exists cs2, cs' = Same (Words nl) :: Same (Words nl) :: cs2) /\ ordered [] cs'
  end.

(** The numbers *)
Fixpoint chunks_numbered (before : list ReferenceSpec.event) (cs : list chunk) : Prop :=
  match cs with
  | [] => True
  | Same _ :: cs' => chunks_numbered before cs'
  | Mark n r :: cs' =>
      n = ReferenceSpec.number before (ReferenceSpec.value_of !"group" (ReferenceSpec.ref_attributes r)) (ReferenceSpec.value_of !"name" (ReferenceSpec.ref_attributes r)) /\
      chunks_numbered (before ++ [ReferenceSpec.mark_of r]) cs'
  | Notes a texts :: cs' =>
      ReferenceSpec.listed before (ReferenceSpec.value_of !"group" a) (map (fun p => (fst p, line_wikitext (snd p))) texts) /\
      chunks_numbered (before ++ [ReferenceSpec.Listing (ReferenceSpec.value_of !"group" a)]) cs'
  end.

Lemma trailing_one : forall y x c, c <> nl_char -> ReferenceSpec.trailing_newlines (y ++ (x ++ [c]) ++ nl) = 1.
Proof.
  intros y x c N. unfold ReferenceSpec.trailing_newlines. rewrite !app_assoc, !rev_app_distr. cbn [rev app nl]. change (nl_char :: c :: rev (y ++ x)) with ([nl_char; c] ++ rev (y ++ x)).
  cbn [app ReferenceSpec.leading_newlines]. rewrite Ascii.eqb_refl. rewrite (proj2 (Ascii.eqb_neq _ _) N). reflexivity.
Qed.

Section Doc.
Context {cfg : configuration}.
Implicit Types (doc : list block).

Definition chunk_ok (c : chunk) : Prop :=
  match c with
  | Same i => math_angles (inline_wikitext i)
  | Mark _ r => note_ok cfg r
  | Notes a texts => note_attributes_ok a /\ Forall (fun p => note_text_ok cfg (snd p)) texts
  end.

Lemma cut_angles : forall cs, Forall chunk_ok cs -> math_angles (fst (cut cs)) /\ Forall (fun p => math_angles (snd p)) (snd (cut cs)).
Proof.
  intros cs F. induction F as [|[i|n r|a x] cs A F [IH1 IH2]]; cbn [cut fst snd]; [split; [apply math_angles_none; intros []|constructor]|..].
  - split; auto. apply math_angles_app; auto.
  - split; [apply math_angles_none; intros []|constructor; auto].
  - split; [apply math_angles_none; cbn; intuition discriminate|constructor; auto].
Qed.

Lemma angles_text : forall s, math_angles s -> ReferenceSpec.text_ok s.
Proof. intros s M. apply math_no_tags in M. split; apply M; cbn; auto 10. Qed.

Definition bodies (s : str) : Prop := exists l, s = line_wikitext l /\ fine l.

Lemma note_body : forall l, note_text_ok cfg l -> no_tag !"<ref" (line_wikitext l) /\ no_tag !"</ref>" (line_wikitext l).
Proof.
  intros l T. apply note_text_fine in T. pose proof (atom_angles (cfg := cfg) 0 l (fine_atoms _ T)) as M. apply math_no_tags in M. split; [apply M; cbn; auto 10|].
  assert (H : no_tag !"</re" (line_wikitext l)) by (apply M; cbn; auto 10). unfold no_tag in *. rewrite contains_false in *. intros a b E. apply (H a (!"f>" ++ b)). rewrite E. reflexivity.
Qed.

Lemma cut_good : forall cs, Forall chunk_ok cs -> Forall (fun p => ReferenceProofs.element_good bodies (fst p)) (snd (cut cs)).
Proof.
  intros cs F. induction F as [|[i|n r|a x] cs A F IH]; cbn [cut snd]; auto; constructor; auto; cbn [fst ReferenceProofs.element_good chunk_ok] in *; [|apply A].
  destruct A as [[A _] B]. unfold ReferenceProofs.reference_good, ReferenceSpec.reference_ok. destruct (ReferenceSpec.ref_body r) as [body|]; [|split; [split; auto|intros b E; discriminate]].
  destruct B as (l & -> & T). split; [split; auto; apply note_body; auto|]. intros b E. injection E as <-. exists l. split; auto. apply note_text_fine. auto.
Qed.

Lemma cut_spaced : forall cs prev y, ordered prev cs -> ReferenceSpec.spaced (y ++ prev ++ fst (cut cs)) (snd (cut cs)).
Proof.
  induction cs as [|[i|n r|a x] cs IH]; intros prev y O; cbn [cut ordered fst snd] in *.
  - constructor.
  - rewrite app_assoc. apply (IH (inline_wikitext i)). auto.
  - specialize (IH [] [] O). cbn [app] in IH. destruct (snd (cut cs)) eqn:E; [constructor|]. constructor; auto; [intros []|discriminate].
  - destruct O as ((z & c & -> & N) & Af & O). specialize (IH [] [] O). cbn [app] in IH. destruct (snd (cut cs)) eqn:E; [constructor|]. constructor; auto; [|discriminate].
    intros _. rewrite trailing_one by auto. destruct Af as [->|[->|(cs2 & ->)]]; [discriminate E|discriminate E|]. cbn. lia.
Qed.

(** What the pieces become *)
Definition chunk_to (t : Tokenizer) (c : chunk) (l : list inline) : Prop :=
  match c with
  | Same i => l = [i]
  | Mark n _ => exists key, l = [Words key] /\ In (key, RefUsageToken n) (tokenMap t)
  | Notes _ texts => exists keys, l = concat (map (fun k => [Words nl; Words k]) keys) /\ Forall2 (defined t) keys texts
  end.

Section Run.
Hypothesis P : prefixes_ok cfg.
Variable fuel : nat.
Let rec := tokenizeContent cfg fuel.

Lemma line_parsed : forall t l content, fine l -> parsed rec t (line_wikitext l) content -> exists l', Forall2 (shown t) l l' /\ content = line_wikitext l'.
Proof.
  intros t l content F (t1 & t2 & U & E & K). destruct (line_result P fuel l t1 F (ok_false _ U)) as [H _]. destruct (H _ _ E) as (_ & _ & l' & S & ->). exists l'. split; auto. eapply shown_lines; eauto.
Qed.

Lemma keys_text : forall keys, line_wikitext (concat (map (fun k => [Words nl; Words k]) keys)) = concat (map (app nl) keys).
Proof. induction keys as [|k keys IH]; auto. cbn [map concat]. rewrite line_app, IH. unfold line_wikitext at 1. cbn [map concat inline_wikitext]. rewrite app_nil_r. reflexivity. Qed.

Lemma one_newline : forall o x c out' n, c <> nl_char -> (o ++ x ++ [c]) ++ nl ++ [] = out' ++ repeat nl_char n -> ~ ends_with nl_char out' -> out' = o ++ x ++ [c].
Proof.
  intros o x c out' n N E H. rewrite app_nil_r in E. destruct n as [|n].
  - cbn [repeat] in E. rewrite app_nil_r in E. exfalso. apply H. exists (o ++ x ++ [c]). auto.
  - assert (R : repeat nl_char (S n) = repeat nl_char n ++ [nl_char]) by (change (S n) with (1 + n); rewrite Nat.add_comm, repeat_app; reflexivity). rewrite R in E. rewrite !app_assoc in E.
    change nl with [nl_char] in E. apply app_inj_tail in E as [E _]. destruct n as [|n]; [cbn [repeat] in E; rewrite app_nil_r in E; rewrite <- E, !app_assoc; auto|].
    assert (R' : repeat nl_char (S n) = repeat nl_char n ++ [nl_char]) by (change (S n) with (1 + n); rewrite Nat.add_comm, repeat_app; reflexivity). rewrite R', !app_assoc in E. apply app_inj_tail in E as [_ E]. congruence.
Qed.

Lemma defined_texts : forall t keys texts, Forall (fun p => note_text_ok cfg (snd p)) texts ->
  Forall2 (fun key p => exists content, ReferenceProofs.token_in t key (RefDefinitionToken (fst p) content) /\ parsed rec t (snd p) content) keys (map (fun p => (fst p, line_wikitext (snd p))) texts) ->
  Forall2 (defined t) keys texts.
Proof.
  intros t keys texts F. revert keys. induction F as [|[n l] texts T F IH]; intros keys H; cbn [map fst snd] in H; inversion H as [|k ? keys' ? (content & I & Pc) H2]; subst; constructor; auto. cbn [fst snd] in *.
  apply line_parsed in Pc as (l' & S & ->); [|apply note_text_fine; auto]. exists l'. auto.
Qed.

Lemma written_chunks : forall t cs before y prev result, Forall chunk_ok cs -> chunks_numbered before cs -> ordered prev cs ->
  ReferenceSpec.written (ReferenceProofs.token_in t) (parsed rec t) before ((y ++ prev) ++ fst (cut cs)) (snd (cut cs)) result ->
  exists rs, Forall2 (chunk_to t) cs rs /\ result = (y ++ prev) ++ line_wikitext (concat rs).
Proof.
  intros t cs. induction cs as [|[i|n r|a x] cs IH]; intros before y prev result F N O W; cbn [cut chunks_numbered ordered fst snd] in *; inversion F as [|? ? F1 F2]; subst.
  - inversion W; subst. exists []. split; auto.
  - rewrite app_assoc in W. destruct (IH before (y ++ prev) (inline_wikitext i) result F2 N O W) as (rs & R & ->). exists ([i] :: rs). split; [constructor; [reflexivity|auto]|]. cbn [concat app]. rewrite line_cons, <- !app_assoc. auto.
  - destruct N as [-> N]. inversion W as [|? ? g name body key ? ? ? ? E I W'|? ? ? ? ? ? ? ? ? ? ? ? [E|(? & ? & E)]]; subst; try discriminate E. rewrite app_nil_r in W'. unfold ReferenceSpec.mark_of in E. injection E as <- <- <-.
    assert (W2 : ReferenceSpec.written (ReferenceProofs.token_in t) (parsed rec t) (before ++ [ReferenceSpec.mark_of r]) (((y ++ prev) ++ key) ++ [] ++ fst (cut cs)) (snd (cut cs)) result) by (cbn [app]; rewrite <- app_assoc; exact W').
    rewrite app_assoc in W2. destruct (IH _ _ [] result F2 N O W2) as (rs & R & ->). exists ([Words key] :: rs). split; [constructor; [exists key; auto|auto]|]. cbn [concat app]. rewrite line_cons, app_nil_r, <- !app_assoc. auto.
  - destruct N as [L N]. destruct O as ((z & c & -> & Nc) & Af & O). inversion W as [| |? ? a' ? g texts keys out' k ? ? ? E G Ls Fk Eo Ne W']; subst. destruct E as [E|(? & ? & E)]; [injection E as <-|discriminate E].
    cbn [ReferenceSpec.hidden_marks ReferenceSpec.hidden_text] in *. rewrite app_nil_r in Ls. cbn [app] in W'. rewrite (listed_same _ _ _ _ Ls L) in *. rewrite <- app_assoc in Eo.
    apply (one_newline y z c) in Eo; auto. subst out'.
    assert (W2 : ReferenceSpec.written (ReferenceProofs.token_in t) (parsed rec t) (before ++ [ReferenceSpec.Listing (ReferenceSpec.value_of !"group" a)]) ((((y ++ z ++ [c]) ++ concat (map (app nl) keys)) ++ []) ++ fst (cut cs)) (snd (cut cs)) result) by (rewrite app_nil_r, <- app_assoc; exact W').
    destruct (IH _ _ [] result F2 N O W2) as (rs & R & ->). exists (concat (map (fun k => [Words nl; Words k]) keys) :: rs). split.
    + constructor; auto. exists keys. split; auto. apply defined_texts; auto. apply F1.
    + cbn [concat]. rewrite line_app, keys_text, app_nil_r, <- !app_assoc. auto.
Qed.

Lemma chunks_pass : forall cs t, Forall chunk_ok cs -> chunks_numbered [] cs -> ordered [] cs -> ok false t ->
  judge true t (parseReferences rec (chunks_text cs)) (fun t' r => exists rs, Forall2 (chunk_to t') cs rs /\ r = line_wikitext (concat rs)).
Proof.
  intros cs t F N O T. rewrite <- cut_text. destruct (cut_angles cs F) as [A1 A2]. eapply judge_weaken.
  - apply (ReferenceProofs.references_judged rec (runs cfg fuel) true bodies).
    + intros t1 s (l & -> & L) O1 _. apply (line_result P fuel l t1 L O1). auto.
    + apply angles_text. auto.
    + pose proof (cut_good cs F) as G. rewrite Forall_forall in *. intros p I. split; auto. apply angles_text. auto.
    + apply (cut_spaced cs [] []). auto.
    + exact T.
  - cbn beta. intros r t' O' G W. apply (written_chunks t' cs [] [] [] r); auto.
Qed.

(** ** Documents *)

Definition block_chunks (b : block) (ls : list (list inline)) : list chunk :=
  match b with
  | Footnotes _ _ a texts => map Same (hd [] ls) ++ [Notes a texts]
  | _ => map chunk_of (flat ls)
  end.
Fixpoint doc_chunks (g : list nat) (doc : list block) (lss : list (list (list inline))) : list chunk :=
  repeat (Same (Words nl)) (hd 0 g) ++
  match doc, lss with
  | b :: doc', ls :: lss' => block_chunks b ls ++ match doc' with [] => [] | _ => [Same (Words nl)] end ++ doc_chunks (tl g) doc' lss'
  | _, _ => []
  end.

(** The texts of the blocks, with newlines around them *)
Fixpoint spread (g : list nat) (texts : list str) : str :=
  repeat nl_char (hd 0 g) ++
  match texts with
  | [] => []
  | x :: texts' => x ++ match texts' with [] => [] | _ => nl end ++ spread (tl g) texts'
  end.

Lemma chunks_app : forall a b, chunks_text (a ++ b) = chunks_text a ++ chunks_text b.
Proof. intros. unfold chunks_text. rewrite map_app, concat_app. auto. Qed.

Lemma chunk_of_text : forall l, chunks_text (map chunk_of l) = line_wikitext l.
Proof. induction l as [|i l IH]; auto. rewrite line_cons, <- IH. destruct i; reflexivity. Qed.

Lemma block_chunks_text : forall t b ls, headed t b ls -> chunks_text (block_chunks b ls) = line_wikitext (flat ls).
Proof.
  intros t b ls H. destruct b; cbn [headed block_chunks] in *; try apply chunk_of_text. destruct H as (key & -> & _). unfold chunks_text. cbn. rewrite !app_nil_r. reflexivity.
Qed.

Lemma newlines_text : forall n, chunks_text (repeat (Same (Words nl)) n) = repeat nl_char n.
Proof. induction n as [|n IH]; auto. cbn [repeat]. rewrite <- IH. reflexivity. Qed.

Lemma doc_chunks_text : forall t doc lss g, Forall2 (headed t) doc lss -> chunks_text (doc_chunks g doc lss) = spread g (map (fun ls => line_wikitext (flat ls)) lss).
Proof.
  intros t doc lss g F. revert g. induction F as [|b ls doc lss H F IH]; intros g; cbn [doc_chunks map spread]; rewrite chunks_app, newlines_text; f_equal. rewrite !chunks_app, (block_chunks_text _ _ _ H), IH. f_equal. f_equal. destruct F; reflexivity.
Qed.

Lemma join_blanks : forall n (l : list str), l <> [] -> join nl (repeat [] n ++ l) = repeat nl_char n ++ join nl l.
Proof.
  induction n as [|n IH]; intros l N; auto. cbn [repeat app]. rewrite join_nil_cons by (intros E; apply app_eq_nil in E as [_ E]; auto). rewrite IH by auto. reflexivity.
Qed.

Lemma join_end_blanks : forall n (l : list str), l <> [] -> join nl (l ++ repeat [] n) = join nl l ++ repeat nl_char n.
Proof.
  induction n as [|n IH]; intros l N; [rewrite !app_nil_r; auto|]. cbn [repeat]. rewrite join_together by (auto; discriminate). f_equal. clear IH. induction n as [|n IH]; [reflexivity|]. cbn [repeat] in *. rewrite join_nil_cons by discriminate. cbn [nl app] in *. f_equal. exact IH.
Qed.

Lemma layout_text : forall lss g, lss <> [] -> Forall (fun ls => ls <> []) lss -> line_wikitext (flat (layout [] g lss)) = spread g (map (fun ls => line_wikitext (flat ls)) lss).
Proof.
  intros lss g N F. rewrite flat_text, layout_map. change (line_wikitext []) with (@nil ascii). revert g N. induction F as [|ls lss H F IH]; intros g N; [contradiction|]. clear N. cbn [map spread]. rewrite layout_cons.
  assert (H' : map line_wikitext ls <> []) by (intros E; apply map_eq_nil in E; auto).
  rewrite join_blanks by (intros E; apply app_eq_nil in E as [E _]; auto). f_equal. rewrite flat_text. destruct F as [|ls1 lss H1 F].
  - cbn [map]. rewrite layout_nil. cbn [spread]. rewrite app_nil_r. cbn [app]. apply join_end_blanks. auto.
  - rewrite join_together; auto; [|apply layout_nonempty; [discriminate|]; apply Forall_map; constructor; [intros E; apply map_eq_nil in E; auto|]; eapply Forall_impl; [|exact F]; intros l L E; apply map_eq_nil in E; auto].
    rewrite (IH (tl g)) by discriminate. reflexivity.
Qed.

(** All parts are known. *)
Definition sound (i : inline) : Prop := match i with Note _ r => note_ok cfg r | Quotes _ => True | _ => math_angles (inline_wikitext i) end.

Lemma inline_sound : forall i, inline_ok i -> sound i.
Proof.
  assert (Z : forall i, atom_ok (cfg := cfg) i -> math_angles (inline_wikitext i)).
  { intros i A. pose proof (atom_angles (cfg := cfg) 0 [i] ltac:(constructor; auto)) as H. unfold line_wikitext in H. cbn [map concat] in H. rewrite app_nil_r in H. exact H. }
  intros [s|k|x y|x y|f|p|n r] A; cbn [sound]; try exact I; try (apply Z; exact A); [|exact A]. destruct A as [_ A]. apply math_angles_none. apply letter_not; auto. cbn. auto 10.
Qed.

Lemma opened_angle : forall ms, math_angles (opened ms).
Proof. intros ms. apply math_angles_none. apply opened_inert. cbn. auto 10. Qed.

Lemma bold_sound : forall l o, Forall sound l -> Forall sound (bold o l).
Proof. induction l as [|i l IH]; intros o F; [constructor|]. inversion F as [|? ? A B]; subst. destruct i; cbn [bold]; constructor; auto. apply opened_angle. Qed.

Lemma line_sound : forall l, line_ok l -> Forall sound l.
Proof. intros l (_ & F & _). eapply Forall_impl; [|exact F]. apply inline_sound. Qed.

Lemma word_sound : forall s l, ~ In "<"%char s -> Forall sound l -> Forall sound (Words s :: l).
Proof. intros s l N F. constructor; auto. apply math_angles_none. auto. Qed.

Lemma cells_sound : forall cells, cells_ok cells -> Forall sound (cells_row cells).
Proof.
  assert (S : forall c, ~ In "<"%char (cell_sign c)) by (intros c I; apply cell_sign_char in I as [I|I]; discriminate).
  assert (S1 : forall h c, kind_ok h (fst c) -> ~ In "<"%char (cell_start c)) by (intros h c K I; apply (cell_start_char h) in I as [I|[I|I]]; auto; try discriminate; apply I; cbn; auto 20).
  assert (S2 : forall h c, kind_ok h (fst c) -> ~ In "<"%char (cell_start c ++ !" ")) by (intros h c K I; apply in_app_iff in I as [I|I]; [revert I; eapply S1; eauto|cbn in I; intuition discriminate]).
  intros cells (h & [(k & -> & K)|[N F]]); [apply word_sound; [apply (S1 h); auto|constructor]|]. destruct F as [|c cells [K [C _]] F]; [constructor|]. cbn [cells_row]. apply Forall_app. split.
  - apply line_sound in C. destruct (snd c); apply word_sound; eauto.
  - clear N C. induction F as [|d cells [Kd [D _]] F IH]; [constructor|]. cbn [map concat]. apply Forall_app. split; auto. apply word_sound; [|apply line_sound; auto].
    intros I. rewrite !in_app_iff in I. destruct I as [I|[I|[I|I]]]; [|revert I; apply S|revert I; eapply S1; eauto|]; cbn in I; intuition discriminate.
Qed.

Lemma block_sound : forall b, block_ok b -> no_heading b -> Forall (Forall sound) (lines_of b).
Proof.
  intros [n title|lines|items|a caption rows|p|fn ft fa fx] B N; cbn [block_ok lines_of] in *; try (destruct N).
  - destruct B as [_ F]. eapply Forall_impl; [|exact F]. intros l (L & _). apply line_sound. auto.
  - apply list_ok_good in B. eapply list_rows; [|exact B]. intros above m x A [X _]. apply word_sound; [|apply line_sound; auto].
    intros I. rewrite Forall_forall in A. rewrite !in_app_iff in I. destruct I as [I|[I|I]]; [apply A in I; cbn in I; intuition discriminate|destruct m; cbn in I; intuition discriminate|cbn in I; intuition discriminate].
  - destruct B as ((A & _) & C & F). constructor; [|apply Forall_app; split; [|apply Forall_app; split]].
    + apply word_sound; [|constructor]. intros I. apply in_app_iff in I as [I|I]; [cbn in I; intuition discriminate|]. revert I. apply letter_not; auto. cbn. auto 20.
    + destruct caption as [c|]; constructor; [|constructor]. apply word_sound; [cbn; intuition discriminate|]. apply line_sound. apply (C c eq_refl).
    + unfold grid_rows. apply Forall_concat. apply Forall_map. eapply Forall_impl; [|exact F]. intros row Fr. constructor; [apply word_sound; [cbn; intuition discriminate|constructor]|].
      apply Forall_map. eapply Forall_impl; [|exact Fr]. apply cells_sound.
    + constructor; [|constructor]. apply word_sound; [cbn; intuition discriminate|constructor].
  - constructor; [|constructor]. apply line_sound. apply picture_line. auto.
Qed.

Lemma bold_no_heading : forall b, no_heading b <-> no_heading (bold_block b).
Proof. intros []; reflexivity. Qed.

Lemma bold_block_sound : forall b, block_ok b -> no_heading b -> Forall sound (flat (lines_of (bold_block b))).
Proof.
  intros b B N. apply flat_Forall; [apply math_angles_none; cbn; intuition discriminate|]. rewrite <- (bold_lines (cfg := cfg)) by auto. apply Forall_map. eapply Forall_impl; [|apply block_sound; auto]. intros l. apply bold_sound.
Qed.

Lemma sound_chunks : forall l, Forall sound l -> (forall k, ~ In (Quotes k) l) -> Forall chunk_ok (map chunk_of l).
Proof.
  intros l F. induction F as [|i l A F IH]; intros Q; [constructor|]. cbn [map]. constructor; [|apply IH; intros k I; apply (Q k); right; auto]. destruct i; cbn [chunk_of chunk_ok sound] in *; auto. exfalso. apply (Q k). left. auto.
Qed.

Lemma bold_no_quotes : forall l o k, ~ In (Quotes k) (bold o l).
Proof. induction l as [|i l IH]; intros o k I; [destruct I|]. destruct i; cbn [bold] in I; (destruct I as [I|I]; [discriminate|revert I; apply IH]). Qed.

Lemma flat_In : forall i ls, In i (flat ls) -> i = Words nl \/ exists l, In l ls /\ In i l.
Proof.
  intros i. induction ls as [|l [|l1 ls] IH]; intros I; [destruct I|right; exists l; split; [left; auto|auto]|]. rewrite flat_cons in I. apply in_app_iff in I as [I|[I|I]]; auto.
  - right. exists l. split; [left; auto|auto].
  - destruct (IH I) as [J|(x & X & J)]; auto. right. exists x. split; [right; auto|auto].
Qed.

Lemma block_no_quotes : forall b k, block_ok b -> ~ In (Quotes k) (flat (lines_of (bold_block b))).
Proof.
  intros b k B I. rewrite <- (bold_lines (cfg := cfg)) in I by auto. apply flat_In in I as [I|(l & L & I)]; [discriminate|]. apply in_map_iff in L as (x & <- & _). revert I. apply bold_no_quotes.
Qed.

Lemma key_chunk : forall t key v, unique t -> In (key, v) (tokenMap t) -> chunk_ok (Same (Words key)).
Proof. intros t key v U I. apply math_angles_none. apply atom_inert; [eapply state_key; eauto|cbn; auto 10]. Qed.

Lemma block_chunks_ok : forall t b ls, unique t -> block_ok b -> headed t (bold_block b) ls -> Forall chunk_ok (block_chunks (bold_block b) ls).
Proof.
  intros t b ls U B H. assert (G : no_heading b -> ls = lines_of (bold_block b) -> Forall chunk_ok (map chunk_of (flat ls))).
  { intros N ->. apply sound_chunks; [apply bold_block_sound; auto|]. intros k. apply block_no_quotes. auto. }
  destruct b as [n title|lines|items|a caption rows|p|fn ft fa fx]; cbn [bold_block headed block_chunks] in *; try (apply G; [exact I|exact H]).
  - destruct H as (key & -> & x & I & _). constructor; [|constructor]. eapply key_chunk; eauto.
  - destruct H as (key & -> & x & I & _). cbn [hd map app]. constructor; [eapply key_chunk; eauto|]. constructor; [|constructor]. destruct B as (_ & A & X). split; auto. rewrite (texts_bold (cfg := cfg)) by auto. auto.
Qed.

Lemma doc_chunks_ok : forall t doc lss g, unique t -> Forall block_ok doc -> Forall2 (headed t) (map bold_block doc) lss -> Forall chunk_ok (doc_chunks g (map bold_block doc) lss).
Proof.
  assert (S : chunk_ok (Same (Words nl))) by (apply math_angles_none; cbn; intuition discriminate).
  intros t doc lss g U B. revert lss g. induction B as [|b doc B F IH]; intros lss g H; cbn [map] in *; inversion H as [|? ls ? lss' H1 H2]; subst; cbn [doc_chunks]; (apply Forall_app; split; [apply repeat_Forall; exact S|]); [constructor|].
  apply Forall_app. split; [eapply block_chunks_ok; eauto|]. apply Forall_app. split; auto. destruct (map bold_block doc); constructor; auto.
Qed.

(** Order *)
Lemma ordered_of : forall l rest prev, (forall p, ordered p rest) -> ordered prev (map chunk_of l ++ rest).
Proof. induction l as [|i l IH]; intros rest prev H; [apply H|]. cbn [map app]. destruct i; cbn [chunk_of ordered]; auto. Qed.

Lemma newlines_ordered : forall n rest prev, (forall p, ordered p rest) -> ordered prev (repeat (Same (Words nl)) n ++ rest).
Proof. induction n as [|n IH]; intros rest prev H; [apply H|]. cbn [repeat app ordered]. auto. Qed.

Lemma doc_ordered : forall t doc lss g prev, unique t -> gaps_ok g doc -> Forall2 (headed t) doc lss -> ordered prev (doc_chunks g doc lss).
Proof.
  intros t doc lss g prev U Gp F. revert g prev Gp. induction F as [|b ls doc lss H F IH]; intros g prev Gp; cbn [doc_chunks]; apply newlines_ordered; intros p; [exact I|]. destruct Gp as [Gp1 Gp2].
  set (rest := match doc with [] => [] | _ => [Same (Words nl)] end ++ doc_chunks (tl g) doc lss).
  assert (R : forall p, ordered p rest) by (intros p'; unfold rest; destruct doc; cbn [app ordered]; apply IH; auto).
  destruct b as [n title|lines|items|a caption rows|pic|fn ft fa fx]; cbn [block_chunks]; try (apply ordered_of; auto). cbn [headed] in H. destruct H as (key & -> & x & J & _). cbn [hd map app ordered inline_wikitext].
  assert (R2 : rest = [] \/ rest = [Same (Words nl)] \/ exists cs2, rest = Same (Words nl) :: Same (Words nl) :: cs2).
  { unfold rest. destruct F as [|b1 ls1 doc lss H1 F].
    - cbn [app doc_chunks]. destruct (hd 0 (tl g)) as [|[|k]]; cbn [repeat app]; eauto.
    - right. right. cbn [app doc_chunks]. destruct (hd 0 (tl g)) as [|k] eqn:Ek; [exfalso; apply (Gp1 b1 doc eq_refl eq_refl)|]. cbn [repeat app]. eauto. }
  split; [|split; auto]. pose proof (state_key _ _ _ U J) as A. destruct key as [|c key _] using rev_ind; [exfalso; apply (atom_nonempty _ A); auto|]. exists key, c. split; auto. intros ->.
  apply (atom_not _ nl_char A); [apply in_app_iff; right; left; auto|]. apply in_app_iff. right. left. auto.
Qed.

(** Numbers *)
Lemma notes_app : forall l m, line_notes (l ++ m) = line_notes l ++ line_notes m.
Proof. intros. unfold line_notes. rewrite map_app, concat_app. auto. Qed.

Lemma bold_notes : forall l o, line_notes (bold o l) = line_notes l.
Proof. induction l as [|i l IH]; intros o; auto. change (i :: l) with ([i] ++ l) at 2. rewrite notes_app. destruct i; cbn [bold]; change (line_notes (?x :: ?y)) with (line_notes ([x] ++ y)); rewrite notes_app, IH; reflexivity. Qed.

Lemma flat_notes : forall ls, line_notes (flat ls) = concat (map line_notes ls).
Proof. induction ls as [|l [|l1 ls] IH]; auto; [cbn; rewrite app_nil_r; auto|]. rewrite flat_cons, notes_app. cbn [map concat]. f_equal. exact IH. Qed.

Lemma concat_concat : forall A (ls : list (list (list A))), concat (concat ls) = concat (map (@concat A) ls).
Proof. induction ls as [|l ls IH]; auto. cbn [concat map]. rewrite concat_app, IH. auto. Qed.

Lemma item_rows_notes : forall i above, concat (map line_notes (item_rows above i)) = item_notes i.
Proof.
  refine (item_rect' _ _). intros m x below IH above. cbn [item_rows item_notes map concat]. change (line_notes (Words (above ++ [sign m] ++ !" ") :: x)) with (line_notes x). f_equal.
  rewrite map_concat, concat_concat, !map_map. f_equal. apply map_ext_in. intros l L. rewrite map_concat, concat_concat, !map_map. f_equal. apply map_ext_in. intros i I.
  rewrite Forall_forall in IH. specialize (IH l L). rewrite Forall_forall in IH. apply IH. auto.
Qed.

Lemma cells_row_notes : forall cells, line_notes (cells_row cells) = cells_notes cells.
Proof.
  intros [|c cells]; auto. cbn [cells_row]. rewrite notes_app. unfold cells_notes. cbn [map concat]. f_equal; [destruct (snd c); reflexivity|]. induction cells as [|d cells IH]; auto. cbn [map concat]. rewrite notes_app, IH. reflexivity.
Qed.

Lemma lines_notes : forall b, no_heading b -> concat (map line_notes (lines_of b)) = block_notes b.
Proof.
  intros [n title|lines|items|a caption rows|p|fn ft fa fx] N; cbn [lines_of block_notes]; try (destruct N); auto.
  - rewrite map_concat, concat_concat, !map_map. f_equal. apply map_ext. intros i. apply item_rows_notes.
  - cbn [map concat]. change (line_notes [Words (!"{|" ++ a)]) with (@nil (nat * ReferenceSpec.reference)). cbn [app]. rewrite !map_app, !concat_app. f_equal; [destruct caption; [cbn [caption_rows map concat]; apply app_nil_r|reflexivity]|].
    cbn [map concat]. change (line_notes [Words !"|}"] ++ []) with (@nil (nat * ReferenceSpec.reference)). rewrite app_nil_r. unfold grid_rows. rewrite map_concat, concat_concat, !map_map. f_equal. apply map_ext. intros row. cbn [map concat].
    change (line_notes [Words !"|-"]) with (@nil (nat * ReferenceSpec.reference)). cbn [app]. rewrite map_map. unfold cells_notes. rewrite map_concat, concat_concat, map_map. f_equal. apply map_ext. apply cells_row_notes.
Qed.

Lemma chunks_numbered_of : forall l before rest, notes_numbered before (line_notes l) -> chunks_numbered (before ++ map (fun p => ReferenceSpec.mark_of (snd p)) (line_notes l)) rest -> chunks_numbered before (map chunk_of l ++ rest).
Proof.
  induction l as [|i l IH]; intros before rest H R; [cbn [line_notes map concat] in R; rewrite app_nil_r in R; exact R|]. change (i :: l) with ([i] ++ l) in H, R. rewrite notes_app in H, R. cbn [map app].
  destruct i; cbn [chunk_of chunks_numbered]; try (apply IH; [exact H|exact R]). cbn in H, R. destruct H as [H1 H2]. split; auto. apply IH; auto. rewrite <- app_assoc. exact R.
Qed.

Lemma newlines_numbered : forall n before rest, chunks_numbered before rest -> chunks_numbered before (repeat (Same (Words nl)) n ++ rest).
Proof. induction n as [|n IH]; intros before rest H; [apply H|]. cbn [repeat app chunks_numbered]. auto. Qed.

Lemma doc_numbered : forall t doc lss g before, Forall block_ok doc -> numbered before doc -> Forall2 (headed t) (map bold_block doc) lss -> chunks_numbered before (doc_chunks g (map bold_block doc) lss).
Proof.
  intros t doc lss g before B. revert lss g before. induction B as [|b doc B F IH]; intros lss g before N H; cbn [map] in *; inversion H as [|? ls ? lss' H1 H2]; subst; cbn [doc_chunks numbered] in *; apply newlines_numbered; [exact I|]. destruct N as (N1 & N2 & N3).
  set (rest := match map bold_block doc with [] => [] | _ => [Same (Words nl)] end ++ doc_chunks (tl g) (map bold_block doc) lss').
  assert (R : chunks_numbered (before ++ block_events b) rest) by (specialize (IH _ (tl g) _ N3 H2); unfold rest; destruct (map bold_block doc); [exact IH|exact IH]).
  assert (G : no_heading b -> ls = lines_of (bold_block b) -> block_events b = map (fun p => ReferenceSpec.mark_of (snd p)) (block_notes b) -> chunks_numbered before (map chunk_of (flat ls) ++ rest)).
  { intros Nh -> E. assert (L : line_notes (flat (lines_of (bold_block b))) = block_notes b).
    { rewrite flat_notes, <- (bold_lines (cfg := cfg)) by auto. rewrite map_map. rewrite (map_ext _ line_notes) by (intros; apply bold_notes). apply lines_notes. auto. }
    apply chunks_numbered_of; rewrite L; auto. rewrite <- E. auto. }
  destruct b as [n title|lines|items|a caption rows|p|fn ft fa fx]; cbn [bold_block headed block_chunks] in *; try (apply G; [exact I|exact H1|reflexivity]).
  - destruct H1 as (key & -> & _). cbn [flat map app chunk_of chunks_numbered]. cbn in R. rewrite app_nil_r in R. exact R.
  - destruct H1 as (key & -> & _). cbn [hd map app chunks_numbered]. split; [|exact R]. rewrite (texts_bold (cfg := cfg)) by apply B. exact N2.
Qed.

(** Back to blocks *)
Lemma chunks_noted : forall t l rs, Forall2 (chunk_to t) (map chunk_of l) rs -> Forall2 (noted t) l (concat rs).
Proof.
  intros t. induction l as [|i l IH]; intros rs F; cbn [map] in F; inversion F as [|? r ? rs' F1 F2]; subst; [constructor|]. cbn [concat]. destruct i; cbn [chunk_of chunk_to] in F1; try (subst r; cbn [app]; constructor; [reflexivity|auto]).
  destruct F1 as (key & -> & I). cbn [app]. constructor; [exists key; auto|auto].
Qed.

Lemma keys_flat : forall key keys, line_wikitext (flat ([Words key] :: map (fun k => [Words k]) keys)) = key ++ concat (map (app nl) keys).
Proof.
  intros key keys. rewrite flat_text. cbn [map]. rewrite one_text, map_map. rewrite (map_ext _ (fun k => k)) by (intros; apply one_text). rewrite map_id. revert key. induction keys as [|k keys IH]; intros key; [cbn; rewrite app_nil_r; auto|]. rewrite join_more, IH. cbn [map concat]. rewrite <- !app_assoc. auto.
Qed.

Lemma block_back : forall t t' b ls rs, keeps t t' -> headed t b ls -> Forall2 (chunk_to t') (block_chunks b ls) rs ->
  exists k ls', block_noted t' b k /\ keyed t' k ls' /\ line_wikitext (concat rs) = line_wikitext (flat ls').
Proof.
  intros t t' b ls rs K H F. assert (G : no_heading b -> (forall p, b <> Figure p) -> ls = lines_of b -> Forall2 (chunk_to t') (map chunk_of (flat ls)) rs ->
    exists k ls', block_rel (Forall2 (noted t')) b k /\ keyed t' k ls' /\ line_wikitext (concat rs) = line_wikitext (flat ls')).
  { intros Nh Np -> F'. apply chunks_noted in F'. apply (flat_Forall2 (noted t')) in F' as (ls' & -> & F'); [|intros x X; exact X]. apply (rows_of_block (noted t') (noted_word t')) in F' as (k & -> & R); auto.
    exists k, (lines_of k). split; auto. split; auto. destruct b as [n title|lines|items|a caption rows|p|fn ft fa fx]; cbn [block_rel] in R; try (destruct Nh; fail); [destruct R as (x & -> & _); reflexivity|destruct R as (x & -> & _); reflexivity|destruct R as (x & y & -> & _); reflexivity|exfalso; eapply Np; eauto]. }
  destruct b as [n title|lines|items|a caption rows|p|fn ft fa fx]; cbn [headed block_chunks block_noted] in *; try (apply G; [exact I|discriminate|exact H|exact F]).
  - destruct H as (key & -> & T). exists (Heading n title), [[Words key]]. split; auto. split; [exists key; split; auto; eapply title_key_mono; eauto|]. apply chunks_noted in F. cbn [flat] in *. inversion F as [|? x ? y X Y]; subst. inversion Y; subst. cbn [noted] in X. subst. reflexivity.
  - subst ls. exists (Figure p), [[Picture p]]. split; auto. split; [reflexivity|]. apply chunks_noted in F. cbn [flat lines_of] in *. inversion F as [|? x ? y X Y]; subst. inversion Y; subst. cbn [noted] in X. subst. reflexivity.
  - destruct H as (key & -> & T). cbn [hd map app] in F. inversion F as [|? r ? rs' F1 F2]; subst. inversion F2 as [|? r' ? rs2 F3 F4]; subst. inversion F4; subst. cbn [chunk_to] in F1, F3. subst r. destruct F3 as (keys & -> & D).
    exists (Footnotes fn ft fa fx), ([Words key] :: map (fun k => [Words k]) keys). split; auto. split; [exists key, keys; split; auto; split; auto; eapply title_key_mono; eauto|].
    rewrite keys_flat. cbn [concat app]. rewrite line_cons, app_nil_r, keys_text. reflexivity.
Qed.

Lemma newlines_back : forall t n rs, Forall2 (chunk_to t) (repeat (Same (Words nl)) n) rs -> line_wikitext (concat rs) = repeat nl_char n.
Proof. induction n as [|n IH]; intros rs F; cbn [repeat] in F; inversion F as [|? x ? y X Y]; subst; auto. cbn [chunk_to] in X. subst x. cbn [concat app repeat]. rewrite line_cons, (IH _ Y). reflexivity. Qed.

Lemma doc_back : forall t t' doc lss g rs, keeps t t' -> Forall2 (headed t) doc lss -> Forall2 (chunk_to t') (doc_chunks g doc lss) rs ->
  exists ks lss', Forall2 (block_noted t') doc ks /\ Forall2 (keyed t') ks lss' /\ line_wikitext (concat rs) = spread g (map (fun ls => line_wikitext (flat ls)) lss').
Proof.
  intros t t' doc lss g rs K F. revert g rs. induction F as [|b ls doc lss H F IH]; intros g rs C; cbn [doc_chunks] in C; apply Forall2_app_inv_l in C as (r0 & r & C0 & C & ->); apply newlines_back in C0.
  { inversion C; subst. exists [], []. split; auto. split; auto. rewrite concat_app, line_app, C0. reflexivity. }
  apply Forall2_app_inv_l in C as (r1 & r2 & C1 & C2 & ->). destruct (block_back _ _ _ _ _ K H C1) as (k & ls' & B1 & B2 & B3). apply Forall2_app_inv_l in C2 as (rn & r3 & Cn & C3 & ->).
  destruct (IH _ _ C3) as (ks & lss' & G1 & G2 & G3). exists (k :: ks), (ls' :: lss'). split; auto. split; auto. rewrite !concat_app, !line_app, C0, B3, G3. cbn [map spread]. f_equal. f_equal. f_equal.
  destruct F as [|b1 ls1 doc lss H1 F]; [inversion Cn; subst; inversion G1; subst; inversion G2; subst; reflexivity|].
  inversion Cn as [|? x ? y X Y]; subst. inversion Y; subst. cbn [chunk_to] in X. subst x. inversion G1; subst. inversion G2; subst. reflexivity.
Qed.

Lemma keyed_nonempty : forall t b ls, block_fine (cfg := cfg) b -> keyed t b ls -> ls <> [].
Proof.
  intros t b ls F K. pose proof (lines_nonempty b F) as L. destruct b; cbn [keyed] in K; try (subst ls; exact L); [destruct K as (key & -> & _); discriminate|destruct K as (key & keys & -> & _); discriminate].
Qed.

Lemma headed_nonempty : forall t b ls, lines_of b <> [] -> headed t b ls -> ls <> [].
Proof.
  intros t b ls L K. destruct b; cbn [headed] in K; try (subst ls; exact L); destruct K as (key & -> & _); discriminate.
Qed.

(** The footnotes of a document *)
Lemma notes_pass : forall g doc lss t, doc <> [] -> Forall block_ok doc -> gaps_ok g (map bold_block doc) -> numbered [] doc -> Forall2 (headed t) (map bold_block doc) lss -> ok false t ->
  judge true t (parseReferences rec (line_wikitext (flat (layout [] g lss)))) (fun t' r => exists ks lss', Forall2 (block_noted t') (map bold_block doc) ks /\ Forall (block_fine (cfg := cfg)) ks /\ Forall2 (keyed t') ks lss' /\ r = line_wikitext (flat (layout [] g lss'))).
Proof.
  intros g doc lss t Nd B Gp N H O. assert (Nl : lss <> []) by (intros ->; inversion H as [E|]; apply Nd; eapply map_eq_nil; eauto). assert (Ne : Forall (fun ls => ls <> []) lss).
  { clear - B H. revert lss H. induction B as [|b doc B F IH]; intros lss H; cbn [map] in H; inversion H as [|? ls ? lss' H1 H2]; subst; constructor; auto. eapply headed_nonempty; [|exact H1].
    rewrite <- (bold_lines (cfg := cfg)) by auto. intros E. apply map_eq_nil in E. revert E. eapply ok_lines; eauto. }
  rewrite layout_text by auto. rewrite <- (doc_chunks_text _ _ _ g H). eapply judge_weaken; [apply chunks_pass; auto; [eapply doc_chunks_ok; eauto; apply O|eapply doc_numbered; eauto|eapply doc_ordered; eauto; apply O]|].
  cbn beta. intros r t' O' G (rs & R & ->). destruct (doc_back t t' _ _ _ _ (grows_keeps _ _ G) H R) as (ks & lss' & B1 & B2 & B3). exists ks, lss'. split; auto.
  assert (Fk : Forall (block_fine (cfg := cfg)) ks).
  { clear - B B1 O'. revert ks B1. induction B as [|b doc B F IH]; intros ks B1; cbn [map] in B1; inversion B1 as [|? k ? ks' H1 H2]; subst; constructor; auto. eapply block_is_fine; eauto. apply O'. }
  split; auto. split; auto. rewrite B3, layout_text; auto; [intros ->; inversion B2; subst; inversion B1 as [E|]; apply Nd; eapply map_eq_nil; eauto|]. clear - Fk B2. revert Fk. induction B2 as [|k ls ks lss H F IH]; intros Fk; constructor; inversion Fk; subst; auto. eapply keyed_nonempty; eauto.
Qed.

(** ** All passes *)

Lemma rel_trans : forall (R S T : list inline -> list inline -> Prop), (forall x y z, R x y -> S y z -> T x z) -> forall i j k, item_rel R i j -> item_rel S j k -> item_rel T i k.
Proof.
  intros R S T H. refine (item_rect' _ _). intros m x below IH j k I J. inversion I as [? ? x' ? below' X B]; subst. inversion J as [? ? x2 ? below2 X2 B2]; subst. constructor; [eauto|].
  clear - IH B B2. revert IH below2 B2. induction B as [|l l' ls ls' L B IHB]; intros IH below2 B2; inversion B2 as [|? l2 ? ls2 L2 B3]; subst; constructor; inversion IH as [|? ? IH1 IH2]; subst; auto.
  clear - IH1 L L2. revert IH1 l2 L2. induction L as [|a b l l' A L IHL]; intros IH1 l2 L2; inversion L2 as [|? c ? l3 C L3]; subst; constructor; inversion IH1; subst; eauto.
Qed.

Lemma Forall2_trans : forall A (R S T : A -> A -> Prop) x y z, (forall a b c, R a b -> S b c -> T a c) -> Forall2 R x y -> Forall2 S y z -> Forall2 T x z.
Proof. intros A R S T x y z H F. revert z. induction F as [|a b x y A1 F IH]; intros z G; inversion G; subst; constructor; eauto. Qed.

Lemma noted_shown : forall t i j k, noted t i j -> shown t j k -> shown t i k.
Proof. intros t i j k N S. destruct i; cbn [noted] in N; try (subst j; exact S). destruct N as (key & -> & I). cbn [shown] in S. subst k. exists key. auto. Qed.

Lemma noted_lines : forall t x y z, Forall2 (noted t) x y -> Forall2 (shown t) y z -> Forall2 (shown t) x z.
Proof. intros t x y z. apply Forall2_trans. apply noted_shown. Qed.

Lemma noted_placed : forall t b k ss, block_noted t b k -> placed t k ss -> placed t b ss.
Proof.
  intros t b k ss N S. destruct b as [n title|lines|items|a caption rows|p|fn ft fa fx]; cbn [block_noted block_rel] in N; try (subst k; exact S).
  - destruct N as (x & -> & N). destruct S as (y & E & S). exists y. split; auto. eapply Forall2_trans; [|exact N|exact S]. apply noted_lines.
  - destruct N as (x & -> & N). destruct S as (key & y & E & I & S). exists key, y. split; auto. split; auto. eapply Forall2_trans; [|exact N|exact S]. apply rel_trans. apply noted_lines.
  - destruct N as (c & x & -> & Nc & N). destruct S as (key & c' & y & E & I & S). exists key, c', y. split; auto. split; auto. cbn [block_rel] in *. destruct S as (c2 & y2 & E2 & Sc & S). injection E2 as <- <-.
    exists c', y. split; auto. split; [destruct caption, c, c'; cbn in *; auto; try contradiction; eapply noted_lines; eauto|]. eapply Forall2_trans; [|exact N|exact S]. intros a1 a2 a3. apply Forall2_trans. intros b1 b2 b3. apply Forall2_trans.
    intros d1 d2 d3 [D1 D2] [D3 D4]. split; [congruence|]. eapply noted_lines; eauto.
Qed.

Lemma noted_paragraph : forall t b k, block_noted t b k -> match b with Paragraph _ => exists l, k = Paragraph l | _ => forall l, k <> Paragraph l end.
Proof.
  intros t [n title|lines|items|a caption rows|p|fn ft fa fx] k N; cbn [block_noted block_rel] in N; try (subst k; discriminate); [destruct N as (x & -> & _); eauto|destruct N as (x & -> & _); discriminate|destruct N as (x & y & -> & _); discriminate].
Qed.

Lemma noted_breaks : forall t doc ks bs, Forall2 (block_noted t) doc ks -> breaks ks bs = breaks doc bs.
Proof.
  intros t doc ks bs F. revert bs. induction F as [|b k doc ks N F IH]; intros [|s bs]; auto. cbn [breaks]. rewrite IH. f_equal. f_equal. apply noted_paragraph in N.
  destruct b; (destruct k; try (exfalso; eapply N; reflexivity); try (destruct N as (? & N); discriminate N)); auto.
  destruct F as [|b1 k1 doc ks N1 F]; auto. apply noted_paragraph in N1. destruct b1; (destruct k1; try (exfalso; eapply N1; reflexivity); try (destruct N1 as (? & N1); discriminate N1)); auto.
Qed.

Lemma touch_bold : forall g doc, gaps_ok g doc -> gaps_ok g (map bold_block doc).
Proof.
  intros g doc. revert g. induction doc as [|b doc IH]; intros g G; [exact I|]. destruct G as [G1 G2]. split; [|apply IH; auto]. intros b' doc' E Z. destruct doc as [|b1 doc]; [discriminate E|]. injection E as <- _. specialize (G1 _ _ eq_refl Z). destruct b, b1; auto.
Qed.

Lemma noted_kind : forall t b k b' k', block_noted t b k -> block_noted t b' k' -> may_touch b b' -> may_touch k k'.
Proof.
  assert (X : forall t b k, block_noted t b k -> match b, k with Heading _ _, Heading _ _ | Paragraph _, Paragraph _ | Items _, Items _ | Grid _ _ _, Grid _ _ _ | Figure _, Figure _ | Footnotes _ _ _ _, Footnotes _ _ _ _ => True | _, _ => False end).
  { intros t b k H. destruct b; cbn [block_noted block_rel] in H; try (subst k; exact I); destruct H as (x & H); repeat (destruct H as (? & H)); subst; try exact I; destruct H; subst; exact I. }
  intros t b k b' k' H H' T. apply X in H. apply X in H'. destruct b, k; try contradiction; destruct b', k'; try contradiction; auto.
Qed.

Lemma touch_noted : forall t g doc ks, Forall2 (block_noted t) doc ks -> gaps_ok g doc -> gaps_ok g ks.
Proof.
  intros t g doc ks F. revert g. induction F as [|b k doc ks H F IH]; intros g G; [exact I|]. destruct G as [G1 G2]. split; [|apply IH; auto]. intros k' ks' -> Z. inversion F; subst. eapply noted_kind; eauto.
Qed.

Theorem document_pass : forall g doc t, doc <> [] -> Forall block_ok doc -> gaps_ok g doc -> numbered [] doc -> ok false t ->
  judge true t (passes cfg rec (laid g doc)) (fun t' r => exists bs, Forall2 (placed t') (map bold_block doc) bs /\ r = join nl (breaks (map bold_block doc) bs) /\ settled r).
Proof.
  intros g doc t N F Gp Nu O. apply touch_bold in Gp. assert (N' : map bold_block doc <> []) by (intros E; apply map_eq_nil in E; auto). unfold passes.
  eapply judge_same; [apply nowiki_none; apply tag_no_nowiki; apply doc_neat; auto|].
  eapply judge_same; [intros t0; unfold lift; rewrite doc_bold by auto; reflexivity|].
  eapply judge_bind; [apply headings_pass; auto; apply Forall_map; eapply Forall_impl; [|exact F]; apply block_is_lined|]. cbn beta. intros r t1 O1 G1 (lss & H & ->).
  eapply judge_bind; [apply (notes_pass g doc); eauto|]. cbn beta. intros r t2 O2 G2 (ks & lss' & B1 & B2 & B3 & ->).
  assert (Nk : ks <> []) by (intros ->; inversion B1; congruence).
  eapply judge_weaken; [apply (rest_pass P fuel g ks lss'); auto; eapply touch_noted; eauto|]. cbn beta. intros r t3 O3 G3 (bs & S & E & Se). assert (B1' : Forall2 (block_noted t3) (map bold_block doc) ks).
  { eapply Forall2_weaken; [|exact B1]. intros b k Hn. assert (M : forall x x', Forall2 (noted t2) x x' -> Forall2 (noted t3) x x').
    { intros x x' X. eapply Forall2_weaken; [|exact X]. intros i i' Y. destruct i; cbn [noted] in *; auto. destruct Y as (key & -> & I). exists key. split; auto. eapply keeps_In; [apply grows_keeps; eauto|auto]. }
    destruct b; cbn [block_noted] in *; auto; eapply block_rel_mono; eauto. }
  exists bs. rewrite <- (noted_breaks t3 (map bold_block doc) ks bs B1'). split; auto. clear - B1' S. revert bs S. induction B1' as [|b k doc' ks N F IH]; intros bs S; inversion S; subst; constructor; auto. eapply noted_placed; eauto.
Qed.
End Run.

Lemma document_result : forall fuel g doc t, prefixes_ok cfg -> doc <> [] -> Forall block_ok doc -> gaps_ok g doc -> numbered [] doc -> ok false t ->
  judge true t (tokenizeContent cfg fuel (laid g doc)) (fun t' r => exists bs, Forall2 (placed t') (map bold_block doc) bs /\ r = join nl (breaks (map bold_block doc) bs)).
Proof.
  intros [|fuel] g doc t P N F Gp Nu O; cbn [tokenizeContent]; [apply judge_fuel|]. eapply judge_bind; [apply document_pass; auto|].
  cbn beta. intros r t' O' G (bs & B & E & S). destruct (str_eqb _ _); [apply judge_ret; eauto|]. eapply judge_weaken; [apply settled_judge; auto|]. cbn beta. intros r' t2 O2 G2 ->. exists bs. split; auto. eapply Forall2_weaken; [|exact B]. intros. eapply placed_mono; eauto. apply grows_keeps. auto.
Qed.
End Doc.
