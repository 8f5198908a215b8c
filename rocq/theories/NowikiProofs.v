(** * Proofs about nowiki areas *)

From Coq Require Import Ascii String.
From Coq Require Import List Arith Bool Lia.
From Verif Require Import GoStr GoStrFacts TextFacts UtilModel BracketModel BracketProofs ConfigModel TokenModel TokenSpec TokenProofs PassSpec HeadingModel PassProofs.
Import ListNotations.
Local Open Scope list_scope.

Lemma to_lower_app : forall a b, to_lower (a ++ b) = to_lower a ++ to_lower b.
Proof. intros. apply map_app. Qed.

Lemma to_lower_length : forall a, length (to_lower a) = length a.
Proof. intros. apply map_length. Qed.

Definition tag_start : str := !"<nowiki>".
Definition tag_close : str := !"</nowiki>".

(** A text that begins with a less-than sign, or the empty text *)
Definition tag_next (r : str) : Prop := r = [] \/ exists x, r = "<"%char :: x.

Lemma here_prefix : forall s, nowiki_here s = true -> has_prefix tag_start (to_lower s) = true.
Proof.
  intros s H. unfold nowiki_here in H. apply andb_prop in H as [_ H]. unfold EqualsIgnoreCase in H. apply str_eqb_eq in H.
  rewrite <- (firstn_skipn (length nowikiStart) s), to_lower_app, H. apply has_prefix_app.
Qed.

(** A tag that begins with a less-than sign, has no other one and does not occur in [p], does not begin in [p]. *)
Lemma tag_not_here : forall tag c p r, ~ In "<"%char tag -> no_tag ("<"%char :: tag) (c :: p) -> tag_next r -> has_prefix ("<"%char :: tag) (to_lower ((c :: p) ++ r)) = false.
Proof.
  intros tag c p r T N R. destruct (has_prefix _ _) eqn:E; auto. exfalso. rewrite to_lower_app in E.
  apply has_prefix_spec in E as (z & E).
  destruct (app_app_cases _ _ _ _ E) as [(w & W & K)|(w & W & K)].
  - destruct w as [|x w].
    + rewrite app_nil_r in W. unfold no_tag in N. rewrite <- W in N. assert (X : contains ("<"%char :: tag) ("<"%char :: tag) = true).
      { apply contains_spec. exists [], []. rewrite app_nil_r. auto. } congruence.
    + destruct R as [->|(y & ->)]; [destruct w; discriminate K|]. cbn [to_lower map app] in K, W. injection K as Kx _. injection W as _ W. apply T. rewrite W.
      apply in_app_iff. right. left. rewrite <- Kx. reflexivity.
  - unfold no_tag in N. rewrite W in N. assert (X : contains ("<"%char :: tag) (("<"%char :: tag) ++ w) = true).
    { apply contains_spec. exists [], w. auto. } congruence.
Qed.

Lemma no_tag_cons : forall tag c p, no_tag tag (c :: p) -> no_tag tag p.
Proof. intros tag c p N. unfold no_tag in *. change (to_lower (c :: p)) with ([lower_char c] ++ to_lower p) in N. apply contains_app_false in N. apply N. Qed.

(** Text without tag is kept. *)
Lemma nowiki_plain : forall p r t, no_tag tag_start p -> tag_next r ->
  parseNowiki_go (p ++ r) 0 t = (do! x := parseNowiki_go r 0 in ret (p ++ x)) t.
Proof.
  induction p as [|c p IH]; intros r t N R.
  - cbn [app]. unfold bindM, ret. destruct (parseNowiki_go r 0 t) as [[]| | |]; auto.
  - cbn [app parseNowiki_go]. change ((length nowikiEnd <? length (c :: p ++ r)) && _) with (nowiki_here (c :: p ++ r)).
    destruct (nowiki_here (c :: p ++ r)) eqn:E.
    + apply here_prefix in E. change (c :: p ++ r) with ((c :: p) ++ r) in E. unfold tag_start in E.
      change !"<nowiki>" with ("<"%char :: !"nowiki>") in E. rewrite tag_not_here in E; auto; [discriminate|].
      intros H. repeat (destruct H as [H|H]; [discriminate H|]). destruct H.
    + apply no_tag_cons in N. unfold bindM in *. rewrite IH; auto. destruct (parseNowiki_go r 0 t) as [[]| | |]; auto.
Qed.

(** The end of an area *)
Lemma find_plain : forall b r d i, no_tag tag_start b -> no_tag tag_close b -> tag_next r ->
  findClose_go true nowikiStart nowikiEnd (b ++ r) 0 d i = findClose_go true nowikiStart nowikiEnd r 0 d (i + length b).
Proof.
  induction b as [|c b IH]; intros r d i N1 N2 R; cbn [app length]; [rewrite Nat.add_0_r; auto|]. cbn [findClose_go].
  change (c :: b ++ r) with ((c :: b) ++ r). unfold at_token.
  change (to_lower nowikiStart) with ("<"%char :: !"nowiki>"). change (to_lower nowikiEnd) with ("<"%char :: !"/nowiki>").
  rewrite (tag_not_here !"nowiki>"), (tag_not_here !"/nowiki>"); auto.
  2: intros H; repeat (destruct H as [H|H]; [discriminate H|]); destruct H.
  2: intros H; repeat (destruct H as [H|H]; [discriminate H|]); destruct H.
  rewrite andb_false_r. rewrite IH; auto; [|eapply no_tag_cons; eauto..]. f_equal. lia.
Qed.

Lemma close_length : forall a, area_ok a -> length (open_tag a) = 8 /\ length (close_tag a) = 9.
Proof.
  intros a (O & C & _). apply (f_equal (@length ascii)) in O, C. rewrite to_lower_length in O, C. auto.
Qed.

Lemma area_close : forall a r, area_ok a ->
  FindCorrespondingCloseTokenIgnoreCase (open_tag a ++ body a ++ close_tag a ++ r) 8 nowikiStart nowikiEnd = Some (8 + length (body a)).
Proof.
  intros a r OK. destruct (close_length a OK) as (L1 & L2). destruct OK as (O & C & N1 & N2 & _). unfold FindCorrespondingCloseTokenIgnoreCase, findCorrespondingCloseToken.
  rewrite skipn_app, skipn_all2 by lia. rewrite L1. cbn [skipn Nat.sub app].
  assert (H : has_prefix tag_close (to_lower (close_tag a ++ r)) = true) by (rewrite to_lower_app, C; apply has_prefix_app).
  destruct (close_tag a) as [|c x]; [discriminate L2|]. cbn [to_lower map] in C. injection C as C _. pose proof (lower_lt _ C) as ->.
  rewrite find_plain; auto; [|right; eexists; reflexivity]. cbn [app findClose_go]. change ("<"%char :: x ++ r) with (("<"%char :: x) ++ r). unfold at_token.
  change (to_lower nowikiStart) with tag_start. change (to_lower nowikiEnd) with tag_close. rewrite H.
  assert (H2 : has_prefix tag_start (to_lower (("<"%char :: x) ++ r)) = false).
  { destruct (has_prefix tag_start _) eqn:E; auto. exfalso. apply has_prefix_spec in H as (u & H), E as (v & E). rewrite H in E. discriminate E. }
  rewrite H2, andb_false_r. reflexivity.
Qed.

Lemma areas_next : forall areas, Forall area_ok areas -> tag_next (concat (map area_text areas)).
Proof.
  intros areas F. destruct F as [|a areas A F]; [left; auto|]. right. cbn [map concat]. unfold area_text. destruct A as (O & _). destruct (open_tag a) as [|c x]; [discriminate|].
  cbn in O. injection O as O _. apply lower_lt in O. subst. eexists. reflexivity.
Qed.

(** The tokens of the areas, the latest one first *)
Fixpoint area_tokens (n : nat) (areas : list area) : list (str * Token) :=
  match areas with
  | [] => []
  | a :: areas' => area_tokens (S n) areas' ++ [(token_key TOKEN_NOWIKI n, NowikiToken (body a))]
  end.

Lemma areas_run : forall areas t, Forall area_ok areas -> parseNowiki_go (concat (map area_text areas)) 0 t =
  Ok (replaced_areas (tokenCounter t) areas,
      mkTokenizer (area_tokens (tokenCounter t) areas ++ tokenMap t) (length areas + tokenCounter t) (images t)).
Proof.
  induction areas as [|a areas IH]; intros t F; [destruct t; reflexivity|]. inversion F as [|? ? A F']; subst. cbn [map concat].
  destruct (close_length a A) as (L1 & L2). pose proof A as (O & C & N1 & N2 & N3).
  assert (H : nowiki_here (area_text a ++ concat (map area_text areas)) = true).
  { unfold nowiki_here. apply andb_true_iff. split.
    - apply Nat.ltb_lt. unfold area_text. rewrite !app_length. change (length nowikiEnd) with 9. lia.
    - unfold EqualsIgnoreCase. apply str_eqb_eq. unfold area_text. rewrite <- !app_assoc. change (length nowikiStart) with 8. rewrite firstn_app.
      rewrite firstn_all2 by lia. rewrite L1. cbn [firstn Nat.sub]. rewrite app_nil_r. rewrite O. reflexivity. }
  assert (S : exists c s, area_text a ++ concat (map area_text areas) = c :: s /\ skipn (pred (8 + length (body a) + 9)) s = following a ++ concat (map area_text areas)).
  { unfold area_text. destruct (open_tag a) as [|c x]; [discriminate L1|]. injection L1 as L1. exists c, (x ++ body a ++ close_tag a ++ following a ++ concat (map area_text areas)).
    rewrite <- !app_assoc. split; [reflexivity|]. rewrite (app_assoc (body a)), (app_assoc x), skipn_app, skipn_all2; rewrite !app_length; [|lia].
    replace (pred _ - _) with 0 by lia. reflexivity. }
  pose proof (area_close a (following a ++ concat (map area_text areas)) A) as Cl.
  replace (open_tag a ++ body a ++ close_tag a ++ following a ++ concat (map area_text areas)) with (area_text a ++ concat (map area_text areas)) in Cl
    by (unfold area_text; rewrite <- !app_assoc; auto).
  assert (Bd : sub (area_text a ++ concat (map area_text areas)) 8 (8 + length (body a)) = body a).
  { unfold sub, area_text. rewrite <- !app_assoc. rewrite skipn_app, skipn_all2 by lia. rewrite L1. cbn [skipn Nat.sub app]. replace (8 + length (body a) - 8) with (length (body a)) by lia.
    rewrite firstn_app, firstn_all, Nat.sub_diag. apply app_nil_r. }
  destruct S as (c & s & E & K). rewrite E in *. cbn [parseNowiki_go].
  change ((length nowikiEnd <? length (c :: s)) && _) with (nowiki_here (c :: s)). rewrite H.
  change (length nowikiStart) with 8. rewrite Cl, Bd. unfold bindM, getToken, setRawToken. cbn [bind]. rewrite nowiki_skip.
  change (length nowikiEnd) with 9. rewrite K. rewrite nowiki_plain; auto; [|apply areas_next; auto]. unfold bindM. rewrite IH; auto. cbn [bind ret tokenCounter tokenMap images].
  cbn [replaced_areas area_tokens length]. rewrite <- !app_assoc, Nat.add_succ_r. reflexivity.
Qed.

Theorem nowiki_run : forall first areas t, no_tag tag_start first -> Forall area_ok areas -> parseNowiki (nowiki_text first areas) t =
  Ok (first ++ replaced_areas (tokenCounter t) areas,
      mkTokenizer (area_tokens (tokenCounter t) areas ++ tokenMap t) (length areas + tokenCounter t) (images t)).
Proof.
  intros first areas t N F. unfold parseNowiki, nowiki_text. rewrite nowiki_plain; auto; [|apply areas_next; auto]. unfold bindM. rewrite areas_run; auto.
Qed.

Lemma area_token_In : forall areas n i a, nth_error areas i = Some a -> In (token_key TOKEN_NOWIKI (n + i), NowikiToken (body a)) (area_tokens n areas).
Proof.
  induction areas as [|b areas IH]; intros n [|i] a E; try discriminate; cbn [area_tokens]; apply in_app_iff.
  - injection E as ->. rewrite Nat.add_0_r. right. left. auto.
  - left. rewrite Nat.add_succ_r. apply (IH (S n)). auto.
Qed.
