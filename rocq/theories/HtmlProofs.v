(** * Proofs about the expansion of texts into HTML *)

From Coq Require Import Ascii String.
From Coq Require Import List Arith ZArith Bool Lia.
From Verif Require Import GoStr GoStrFacts TextFacts ConfigModel TokenModel TokenSpec TokenProofs PassSpec FormattingModel ExpandModel ExpandSpec ExpandProofs HtmlModel.
Import ListNotations.
Local Open Scope list_scope.

Definition html_pairs : list (str * str) :=
  [(!"MARKER_BOLD_OPEN", !"<b>"); (!"MARKER_BOLD_CLOSE", !"</b>"); (!"MARKER_ITALIC_OPEN", !"<i>");
   (!"MARKER_ITALIC_CLOSE", !"</i>"); (!"MARKER_PARAGRAPH", !"<br><br>")].

Lemma capital_name : forall n, forallb (fun c => existsb (Ascii.eqb c) !"_ABCDEFGHIJKLMNOPQRSTUVWXYZ") n = true -> Forall capital n.
Proof.
  intros n H. rewrite forallb_forall in H. apply Forall_forall. intros c I. apply H, existsb_exists in I as (x & X & E). apply Ascii.eqb_eq in E. subst x.
  destruct X as [<-|X]; [left|right]; auto.
Qed.

Lemma marker_name : forall n, In n [!"MARKER_BOLD_OPEN"; !"MARKER_BOLD_CLOSE"; !"MARKER_ITALIC_OPEN"; !"MARKER_ITALIC_CLOSE"; !"MARKER_PARAGRAPH"] -> name_ok n.
Proof.
  intros n I. repeat (destruct I as [<-|I]; [split; [discriminate|split; [apply capital_name; reflexivity|]]; do 6 right; left; reflexivity|]). destruct I.
Qed.

Lemma html_pairs_ok : pairs_ok html_pairs.
Proof.
  repeat (apply Forall_cons; [split; [apply marker_name; cbn [fst In]; tauto|];
    split; [intros I; vm_compute in I; repeat (destruct I as [I|I]; [discriminate I|]); destruct I
           |left; intros I; vm_compute in I; repeat (destruct I as [I|I]; [discriminate I|]); destruct I]|]). apply Forall_nil.
Qed.

Lemma html_marker_eq : forall c, htmlMarker c = replace_markers html_pairs c.
Proof. reflexivity. Qed.

Lemma marker_not_key : forall k, In k all_markers -> is_key k -> False.
Proof.
  intros k I (ty & n & _ & ->). unfold token_key in I. change (!"$$TOKEN_") with ("$"%char :: "$"%char :: "T"%char :: !"OKEN_") in I.
  repeat (destruct I as [I|I]; [discriminate I|]). destruct I.
Qed.

Lemma key_atom : forall k, In k all_markers \/ is_key k -> atom k.
Proof.
  intros k [I|(ty & n & T & ->)].
  - assert (H := markers_atom). rewrite Forall_forall in H. auto.
  - apply token_key_atom; auto.
Qed.

Lemma atom_no_dollar : forall (P : str -> Prop) (d : layout), (forall k, P k -> atom k) -> keys_plain P d ->
  ~ In "$"%char (fst d) /\ Forall (fun p => atom (fst p) /\ ~ In "$"%char (snd p)) (snd d).
Proof.
  intros P d H [[K1 _] K2]. split; auto. eapply Forall_impl; [|exact K2]. cbn. intros p [X [Y _]]. auto.
Qed.

(** ** The converse of [markers_filled] *)

Lemma merge_unfilled : forall n h (P : str -> str -> Prop) l s hs', P (mark_of n) h -> Forall2 P (map fst (snd (merge n h s l))) hs' ->
  exists hs, Forall2 P (map fst l) hs /\ filled (s, l) hs = filled (merge n h s l) hs'.
Proof.
  intros n h P l. induction l as [|[k u] l IH]; intros s hs' H F.
  - inversion F; subst. exists []. split; [constructor|reflexivity].
  - cbn [merge] in *. destruct (str_eqb k (mark_of n)) eqn:E.
    + apply str_eqb_eq in E. subst k. destruct (IH _ _ H F) as (hs & F2 & E2). exists (h :: hs). split; [constructor; auto|].
      rewrite <- E2. unfold filled. cbn [fst snd map combine concat]. rewrite <- !app_assoc. reflexivity.
    + cbn [snd map fst] in F. inversion F as [|? x ? hs1 Px F']; subst. destruct (IH _ _ H F') as (hs & F2 & E2). exists (x :: hs). split; [constructor; auto|].
      unfold filled in *. cbn [fst snd map combine concat] in *. rewrite <- !app_assoc. f_equal. f_equal. exact E2.
Qed.

Lemma markers_unfilled : forall pairs d (P : str -> str -> Prop) hs', (forall n h, In (n, h) pairs -> P (mark_of n) h) ->
  Forall2 P (map fst (snd (merge_markers pairs d))) hs' ->
  exists hs, Forall2 P (map fst (snd d)) hs /\ filled d hs = filled (merge_markers pairs d) hs'.
Proof.
  induction pairs as [|[n h] pairs IH]; intros [s l] P hs' H F.
  - exists hs'. auto.
  - change (merge_markers ((n, h) :: pairs) (s, l)) with (merge_markers pairs (merge n h s l)) in *.
    destruct (IH (merge n h s l) P hs') as (hs1 & F1 & E1); auto; [intros m g I; apply H; right; auto|].
    destruct (merge_unfilled n h P l s hs1) as (hs & F2 & E2); auto; [apply H; left; auto|].
    exists hs. split; auto. congruence.
Qed.

(** ** HTML *)

Section Html.
Variable cfg : configuration.
Variable renderMath : str -> res (str * str * str * str).
Variable m : list (str * Token).
Let g := HtmlGenerator cfg renderMath m.

Lemma state_unit : forall R (r : res (R * unit)) x, r = Ok x -> r = Ok (fst x, tt).
Proof. intros R r [x []] ->. reflexivity. Qed.

Lemma segments_html : forall et l text html, segments g et text l tt = Ok (html, tt) <->
  exists hs, Forall2 (fun k h => exists v, lookup_token k m = Some v /\ et v tt = Ok (h, tt)) (map fst l) hs /\ html = filled (text, l) hs.
Proof.
  intros et l. induction l as [|[k s] l IH]; intros text html; cbn [segments].
  - assert (E : expandSegment g text tt = Ok (text, tt)) by (destruct text; reflexivity). rewrite E. unfold filled. cbn [map fst snd]. split.
    + intros X. injection X as <-. exists []. split; [constructor|]. cbn. rewrite app_nil_r. reflexivity.
    + intros (hs & F & ->). inversion F; subst. cbn. rewrite app_nil_r. reflexivity.
  - assert (E : expandSegment g text tt = Ok (text, tt)) by (destruct text; reflexivity). unfold bindX at 1. rewrite E. cbn [bind].
    change (handlerTokens g) with m. split.
    + destruct (lookup_token k m) as [v|] eqn:L; [|discriminate]. unfold bindX. destruct (et v tt) as [[x []]| | |] eqn:Ev; cbn [bind]; try discriminate.
      destruct (segments g et s l tt) as [[r []]| | |] eqn:Es; cbn [bind]; try discriminate. intros X. injection X as <-.
      apply IH in Es as (hs & F & ->). exists (x :: hs). split; [constructor; eauto|]. unfold filled. cbn [fst snd map combine concat]. rewrite <- !app_assoc. reflexivity.
    + intros (hs & F & ->). cbn [map fst] in F. inversion F as [|? x ? hs1 (v & L & Ev) F']; subst. rewrite L. unfold bindX. rewrite Ev. cbn [bind].
      assert (Es : segments g et s l tt = Ok (filled (s, l) hs1, tt)) by (apply IH; eauto). rewrite Es. cbn [bind retX].
      unfold filled. cbn [fst snd map combine concat]. rewrite <- !app_assoc. reflexivity.
Qed.

Definition token_html (fuel : nat) (v : Token) (h : str) : Prop := expandToken g fuel v tt = Ok (h, tt).

Lemma pair_marker : forall n h, In (n, h) html_pairs -> In (mark_of n, h) marker_html.
Proof.
  intros n h I. cbn [In html_pairs] in I. destruct I as [I|[I|[I|[I|[I|[]]]]]]; injection I as <- <-; cbn; tauto.
Qed.

Lemma marker_pair : forall k h, In (k, h) marker_html -> exists n, In (n, h) html_pairs /\ k = mark_of n.
Proof.
  intros k h I. cbn [In marker_html] in I. destruct I as [I|[I|[I|[I|[I|[]]]]]]; injection I as <- <-; eexists; (split; [cbn; eauto 8|reflexivity]).
Qed.

Lemma marker_function : forall n h x, In (n, h) html_pairs -> In (mark_of n, x) marker_html -> x = h.
Proof.
  intros n h x I J. cbn [In html_pairs marker_html] in I, J.
  destruct I as [I|[I|[I|[I|[I|[]]]]]]; injection I as <- <-; destruct J as [J|[J|[J|[J|[J|[]]]]]]; first [discriminate J|apply (f_equal snd) in J; symmetry; exact J].
Qed.

Lemma marker_in : forall n h, In (n, h) html_pairs -> In (mark_of n) all_markers.
Proof. intros n h I. cbn [In html_pairs] in I. destruct I as [I|[I|[I|[I|[I|[]]]]]]; injection I as <- <-; cbn; tauto. Qed.

Lemma marker_names : map (fun p => mark_of (fst p)) html_pairs = all_markers.
Proof. reflexivity. Qed.

Lemma merged_keys : forall d k, layout_ok d -> In k (map fst (snd (merge_markers html_pairs d))) -> is_key k.
Proof.
  intros d k O I. destruct (markers_replaced html_pairs d _ html_pairs_ok key_atom O) as [E K].
  destruct K as [_ K]. rewrite Forall_forall in K. apply in_map_iff in I as (p & <- & I). apply K in I as [[[X|X] Y] _]; auto. exfalso. apply Y. exact X.
Qed.

Lemma expand_segments : forall fuel d, layout_ok d ->
  expandString g (S fuel) (layout_text d) tt = segments g (expandToken g fuel) (fst (merge_markers html_pairs d)) (snd (merge_markers html_pairs d)) tt.
Proof.
  intros fuel d O. pose proof (merged_keys d) as K'. destruct (markers_replaced html_pairs d _ html_pairs_ok key_atom O) as [E K].
  destruct (atom_no_dollar _ _ (fun k H => key_atom k (proj1 H)) K) as [D1 D2]. set (d' := merge_markers html_pairs d) in *.
  cbn [expandString]. change (expandMarker g) with htmlMarker. rewrite html_marker_eq, E. destruct d' as [s l] eqn:Ed. cbn [fst snd] in *. destruct l as [|[k u] l].
  - rewrite layout_eq. unfold body. cbn [map concat]. rewrite app_nil_r. rewrite has_token_none by auto. cbn [segments]. destruct s; reflexivity.
  - rewrite layout_eq, body_cons, has_token_key; [|apply K'; auto; left; auto]. rewrite <- body_cons. unfold expandToken. rewrite (go_segments g _ ((k, u) :: l) s [] tt) by auto. reflexivity.
Qed.

Lemma expandString_html : forall fuel d html, layout_ok d -> htmlExpand cfg renderMath m (S fuel) (layout_text d) = Ok html <->
  exists hs, Forall2 (key_text m (token_html fuel)) (map fst (snd d)) hs /\ html = filled d hs.
Proof.
  intros fuel d html O. unfold htmlExpand. fold g. rewrite expand_segments by auto. pose proof (fun k => merged_keys d k O) as K'. set (d' := merge_markers html_pairs d) in *.
  assert (S : segments g (expandToken g fuel) (fst d') (snd d') tt = Ok (html, tt) <-> exists hs, Forall2 (key_text m (token_html fuel)) (map fst (snd d)) hs /\ html = filled d hs).
  { rewrite segments_html. split.
    - intros (hs' & F & ->). destruct (markers_unfilled html_pairs d (key_text m (token_html fuel)) hs') as (hs & F2 & E2).
      + intros n h I. apply text_of_marker. apply pair_marker; auto.
      + fold d'. clear -F K'. revert F K'. generalize (map fst (snd d')). intros ks F K'. induction F as [|k h ks hs (v & L & T) F IH]; [constructor|].
        constructor; [|apply IH; intros x I; apply K'; right; auto]. eapply text_of_token; eauto. apply K'. left. auto.
      + exists hs. split; auto.
    - intros (hs & F & ->). destruct (markers_filled html_pairs d (key_text m (token_html fuel)) hs) as (hs' & F2 & E2); auto.
      + intros n h x I X. inversion X as [? ? I2|? ? ? K2]; subst.
        * eapply marker_function; eauto.
        * exfalso. apply (marker_not_key (mark_of n)); auto. eapply marker_in; eauto.
      + exists hs'. split; [|symmetry; exact E2]. fold d' in F2. clear -F2 K'. revert F2 K'. generalize (map fst (snd d')). intros ks F K'.
        induction F as [|k h ks hs T F IH]; [constructor|]. constructor; [|apply IH; intros x I; apply K'; right; auto].
        inversion T as [? ? I2|? v ? K2 L2 T2]; subst; [|exists v; split; auto]. exfalso. apply (marker_not_key k); [|apply K'; left; auto].
        apply marker_pair in I2 as (n & I2 & ->). eapply marker_in; eauto. }
  rewrite <- S. destruct (segments g _ _ _ tt) as [[x []]| | |]; cbn; split; intros X; try discriminate; injection X as <-; reflexivity.
Qed.

Lemma expandString_state : forall fuel c h u, expandString g fuel c tt = Ok (h, u) <-> htmlExpand cfg renderMath m fuel c = Ok h.
Proof.
  intros fuel c h []. unfold htmlExpand. fold g. destruct (expandString g fuel c tt) as [[x []]| | |]; cbn; split; intros X; try discriminate; injection X as <-; reflexivity.
Qed.

(** ** Unknown keys *)

Lemma merge_filter : forall n h l s, map fst (snd (merge n h s l)) = filter (fun k => negb (str_eqb k (mark_of n))) (map fst l).
Proof.
  intros n h l. induction l as [|[k u] l IH]; intros s; auto. cbn [merge map fst filter]. destruct (str_eqb k (mark_of n)); cbn [negb snd map fst]; rewrite IH; auto.
Qed.

Lemma merged_prefix : forall pairs d ks1 k ks2, map fst (snd d) = ks1 ++ k :: ks2 -> ~ In k (map (fun p => mark_of (fst p)) pairs) ->
  exists ks3 ks4, map fst (snd (merge_markers pairs d)) = ks3 ++ k :: ks4 /\ incl ks3 ks1.
Proof.
  induction pairs as [|[n h] pairs IH]; intros [s l] ks1 k ks2 E N.
  - exists ks1, ks2. split; auto. intros x; auto.
  - change (merge_markers ((n, h) :: pairs) (s, l)) with (merge_markers pairs (merge n h s l)). cbn [snd] in E.
    destruct (IH (merge n h s l) (filter (fun k => negb (str_eqb k (mark_of n))) ks1) k (filter (fun k => negb (str_eqb k (mark_of n))) ks2)) as (ks3 & ks4 & E3 & I3).
    + rewrite merge_filter, E, filter_app. cbn [filter]. destruct (str_eqb k (mark_of n)) eqn:X; auto. apply str_eqb_eq in X. exfalso. apply N. left. auto.
    + intros I. apply N. right. auto.
    + exists ks3, ks4. split; auto. intros x I. apply I3 in I. apply filter_In in I. tauto.
Qed.

Lemma segments_err : forall et l text ks1 k ks2, map fst l = ks1 ++ k :: ks2 ->
  Forall (fun k => exists v h, lookup_token k m = Some v /\ et v tt = Ok (h, tt)) ks1 -> lookup_token k m = None -> segments g et text l tt = Err.
Proof.
  intros et l. induction l as [|[k s] l IH]; intros text ks1 k0 ks2 E F L; [destruct ks1; discriminate|]. cbn [segments].
  assert (Et : expandSegment g text tt = Ok (text, tt)) by (destruct text; reflexivity). unfold bindX at 1. rewrite Et. cbn [bind].
  change (handlerTokens g) with m. destruct ks1 as [|k1 ks1]; cbn [map fst app] in E; injection E as <- E.
  - rewrite L. reflexivity.
  - destruct (Forall_inv F) as (v & h & Lv & Ev). rewrite Lv. unfold bindX. rewrite Ev. cbn [bind]. rewrite (IH s ks1 k0 ks2); auto. exact (Forall_inv_tail F).
Qed.

Lemma expandString_unknown : forall fuel d ks1 k ks2, layout_ok d -> map fst (snd d) = ks1 ++ k :: ks2 -> is_key k -> lookup_token k m = None ->
  Forall (fun k => exists h, key_text m (token_html fuel) k h) ks1 -> htmlExpand cfg renderMath m (S fuel) (layout_text d) = Err.
Proof.
  intros fuel d ks1 k ks2 O E K L F. unfold htmlExpand. fold g. rewrite expand_segments by auto.
  destruct (merged_prefix html_pairs d ks1 k ks2 E) as (ks3 & ks4 & E3 & I3).
  { rewrite marker_names. intros I. eapply marker_not_key; eauto. }
  rewrite (segments_err _ _ _ ks3 k ks4); auto. apply Forall_forall. intros x I. assert (X : is_key x) by (apply (merged_keys d); auto; rewrite E3; apply in_or_app; auto).
  rewrite Forall_forall in F. destruct (F x (I3 x I)) as [h H]. inversion H as [? ? J|? v ? ? J1 J2]; subst; [|exists v, h; auto].
  exfalso. apply (marker_not_key x); auto. apply marker_pair in J as (n & J & ->). eapply marker_in; eauto.
Qed.
End Html.
