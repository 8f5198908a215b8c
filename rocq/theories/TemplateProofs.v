(** * Proofs about the evaluation of templates *)

From Coq Require Import Ascii String.
From Coq Require Import List Arith Bool Lia.
From Verif Require Import GoStr GoStrFacts TextFacts BracketModel BracketSpec BracketProofs CleanerSpec TemplateModel TemplateSpec.
Import ListNotations.
Local Open Scope list_scope.

(** ** Placeholders in texts *)

Definition mark : str := !"TEMPLATE_PLACEHOLDER_".

Lemma prefix_mark : templatePlaceholderPrefix = !"$$" ++ mark.
Proof. reflexivity. Qed.

Lemma pieces_cons : forall p l, pieces_text (p :: l) = piece_text p ++ pieces_text l.
Proof. reflexivity. Qed.

Lemma pieces_app : forall a b, pieces_text (a ++ b) = pieces_text a ++ pieces_text b.
Proof. intros. unfold pieces_text. rewrite map_app, concat_app. auto. Qed.

Lemma pieces_chars : forall w, pieces_text (map Chr w) = w.
Proof. induction w; auto. cbn [map]. rewrite pieces_cons, IHw. auto. Qed.

Lemma hole_text : forall k, piece_text (Hole k) = placeholder k.
Proof. reflexivity. Qed.

Definition hex_holes (l : list piece) : Prop := forall k, In (Hole k) l -> Forall hexadecimal k.
Definition clean_pieces (l : list piece) : Prop := forall l1 w l2, l = l1 ++ map Chr w ++ l2 -> contains mark w = false.

Lemma clean_tail : forall p l, clean_pieces (p :: l) -> clean_pieces l.
Proof. intros p l H l1 w l2 ->. apply (H (p :: l1) w l2). auto. Qed.
Lemma hex_tail : forall p l, hex_holes (p :: l) -> hex_holes l.
Proof. intros p l H k I. apply H. right. auto. Qed.

Lemma hex_no_dollar : forall k, Forall hexadecimal k -> ~ In "$"%char k.
Proof.
  intros k H I. rewrite Forall_forall in H. apply H in I. unfold hexadecimal in I. cbn [In] in I.
  repeat (destruct I as [I|I]; [discriminate|]). auto.
Qed.
Lemma hex_no_T : forall k, Forall hexadecimal k -> ~ In "T"%char k.
Proof.
  intros k H I. rewrite Forall_forall in H. apply H in I. unfold hexadecimal in I. cbn [In] in I.
  repeat (destruct I as [I|I]; [discriminate|]). auto.
Qed.

(** Text without dollar signs does not come from placeholders *)
Lemma no_dollar_chars : forall w l b, ~ In "$"%char w -> pieces_text l = w ++ b ->
  exists l', l = map Chr w ++ l' /\ b = pieces_text l'.
Proof.
  induction w as [|c w IH]; intros l b N E.
  - exists l. auto.
  - destruct l as [|[x|k] l]; [discriminate| |].
    + rewrite pieces_cons in E. cbn [piece_text app] in E. injection E as -> E.
      destruct (IH l b) as (l' & -> & ->); auto. { intros K. apply N. right. auto. }
      exists l'. auto.
    + rewrite pieces_cons in E. cbn [piece_text app] in E. injection E as E0 E. exfalso. apply N. left. auto.
Qed.

Lemma app_split_le : forall (a b c d : str), a ++ b = c ++ d -> length c <= length a -> exists z, a = c ++ z /\ d = z ++ b.
Proof.
  intros a b c. revert a. induction c as [|x c IH]; intros a d E L.
  - exists a. auto.
  - destruct a as [|y a]; [cbn in L; lia|]. cbn [app] in E. injection E as -> E.
    destruct (IH a d E) as (z & -> & ->); [cbn in L; lia|]. exists z. auto.
Qed.

(** Inside of a placeholder, the mark occurs only at its position *)
Lemma mark_in_hole : forall k a b r, Forall hexadecimal k -> placeholder k ++ r = a ++ mark ++ b -> length a < length (placeholder k) ->
  a = !"$$" /\ b = k ++ !"$$" ++ r.
Proof.
  intros k a b r H E L. unfold placeholder in *. rewrite prefix_mark in *.
  destruct (Nat.ltb_spec (length a) 23) as [Q|Q].
  - (* positions inside of the fixed text *)
    assert (X : exists z, skipn (length a) (!"$$" ++ mark) ++ k ++ !"$$" ++ r = mark ++ b /\ a = firstn (length a) (!"$$" ++ mark) /\ z = 0).
    { assert (F : firstn (length a) (((!"$$" ++ mark) ++ k ++ !"$$") ++ r) = a).
      { rewrite E, firstn_app, firstn_all, Nat.sub_diag. cbn [firstn]. apply app_nil_r. }
      assert (S : skipn (length a) (((!"$$" ++ mark) ++ k ++ !"$$") ++ r) = mark ++ b).
      { rewrite E, skipn_app, skipn_all, Nat.sub_diag. reflexivity. }
      exists 0. rewrite <- !app_assoc in F, S. rewrite (app_assoc !"$$" mark) in F, S.
      rewrite firstn_app in F. rewrite skipn_app in S.
      assert (Z : length a - length (!"$$" ++ mark) = 0) by (cbn; lia). rewrite Z in F, S. cbn [firstn skipn] in F, S.
      rewrite app_nil_r in F. auto. }
    destruct X as (_ & S & F & _).
    do 23 (destruct a as [|? a]; [cbn [length skipn firstn app mark] in S, F; try discriminate S; try (injection S as S; subst; auto; fail)|]).
    + cbn in Q. lia.
  - exfalso. rewrite <- app_assoc in E. destruct (app_split_le a (mark ++ b) (!"$$" ++ mark) ((k ++ !"$$") ++ r)) as (z & -> & Ez); [auto|cbn; lia|].
    rewrite !app_length in L. cbn [length] in L. unfold mark in Ez at 1. rewrite <- app_assoc in Ez. cbn [app] in Ez.
    assert (Lz : length z < length k + 2) by (cbn in L; lia). clear -Ez Lz H.
    revert z Ez Lz. induction k as [|x k IH]; intros z Ez Lz.
    + destruct z as [|z0 [|z1 z]]; [discriminate Ez|discriminate Ez|cbn in Lz; lia].
    + inversion H; subst. destruct z as [|z0 z].
      * injection Ez as -> _. apply (hex_no_T ["T"%char]); [constructor; auto|left; auto].
      * injection Ez as -> Ez. apply (IH H3 z); auto. cbn in Lz. lia.
Qed.

(** The mark occurs only in placeholders *)
Lemma mark_occurrence : forall l a b, clean_pieces l -> hex_holes l -> pieces_text l = a ++ mark ++ b ->
  exists l1 k l2, l = l1 ++ Hole k :: l2 /\ a = pieces_text l1 ++ !"$$" /\ b = k ++ !"$$" ++ pieces_text l2.
Proof.
  induction l as [|p l IH]; intros a b C H E.
  - destruct a; discriminate.
  - destruct p as [c|k].
    + destruct a as [|x a].
      * exfalso. cbn [app] in E. destruct (no_dollar_chars mark (Chr c :: l) b) as (l' & El & _); auto.
        { unfold mark. cbn [In]. intuition discriminate. }
        assert (Cm : contains mark mark = false) by (apply (C [] mark l'); auto). discriminate.
      * rewrite pieces_cons in E. cbn [piece_text app] in E. injection E as -> E.
        destruct (IH a b) as (l1 & k & l2 & -> & -> & ->); [eapply clean_tail; eauto|eapply hex_tail; eauto|auto|].
        exists (Chr x :: l1), k, l2. auto.
    + rewrite pieces_cons, hole_text in E.
      destruct (Nat.ltb_spec (length a) (length (placeholder k))) as [L|L].
      * apply mark_in_hole in E as [-> ->]; auto; [|apply H; left; auto]. exists [], k, l. auto.
      * symmetry in E. apply app_split_le in E as (z & -> & E); [|auto].
        destruct (IH z b) as (l1 & k' & l2 & -> & -> & ->); [eapply clean_tail; eauto|eapply hex_tail; eauto|auto|].
        exists (Hole k :: l1), k', l2. split; auto. rewrite pieces_cons, hole_text, <- app_assoc. auto.
Qed.

(** ** Replacing *)

Definition subst_piece (k : str) (v : list piece) (p : piece) : list piece :=
  match p with Hole k' => if str_eqb k k' then v else [p] | Chr _ => [p] end.
Definition subst_pieces (k : str) (v : list piece) (l : list piece) : list piece := flat_map (subst_piece k v) l.

Lemma replace_all_pass : forall old new a s, (forall j, j < length a -> has_prefix old (skipn j (a ++ s)) = false) ->
  replace_all old new (a ++ s) = a ++ replace_all old new s.
Proof.
  intros old new a s. induction a as [|c a IH]; intros H; auto.
  cbn [app]. rewrite replace_all_cons.
  - f_equal. apply IH. intros j J. apply (H (S j)). cbn. lia.
  - apply (H 0). cbn. lia.
Qed.

Lemma dollar_split : forall k k' a b, ~ In "$"%char k -> ~ In "$"%char k' -> k ++ "$"%char :: a = k' ++ "$"%char :: b -> k = k' /\ a = b.
Proof.
  induction k as [|x k IH]; intros [|y k'] a b N N' E; cbn [app] in E.
  - injection E as ->. auto.
  - injection E as <- _. exfalso. apply N'. left. auto.
  - injection E as -> _. exfalso. apply N. left. auto.
  - injection E as -> E. destruct (IH k' a b) as [-> ->]; auto; intros K; [apply N|apply N']; right; auto.
Qed.

Lemma placeholder_prefix : forall k s, has_prefix (placeholder k) s = true -> exists t, s = !"$$" ++ mark ++ k ++ !"$$" ++ t.
Proof.
  intros k s H. apply has_prefix_spec in H as (t & ->). exists t. unfold placeholder. rewrite prefix_mark, <- !app_assoc. auto.
Qed.

Lemma replace_pieces : forall k v l, Forall hexadecimal k -> clean_pieces l -> hex_holes l ->
  replace_all (placeholder k) (pieces_text v) (pieces_text l) = pieces_text (subst_pieces k v l).
Proof.
  intros k v l Hk. induction l as [|p l IH]; intros C H; auto.
  pose proof (clean_tail _ _ C) as C'. pose proof (hex_tail _ _ H) as H'. specialize (IH C' H').
  unfold subst_pieces. cbn [flat_map]. fold (subst_pieces k v l). rewrite pieces_app, pieces_cons.
  destruct p as [c|k']; cbn [subst_piece].
  - cbn [piece_text app]. rewrite replace_all_cons.
    + rewrite IH. auto.
    + destruct (has_prefix (placeholder k) (c :: pieces_text l)) eqn:P; auto. exfalso.
      apply placeholder_prefix in P as (t & E).
      destruct (mark_occurrence (Chr c :: l) !"$$" (k ++ !"$$" ++ t)) as (l1 & k1 & l2 & El & Ea & _); auto.
      destruct l1 as [|p l1]; [discriminate|]. rewrite pieces_cons in Ea.
      assert (L : length !"$$" = length ((piece_text p ++ pieces_text l1) ++ !"$$")) by (rewrite <- Ea; auto).
      rewrite !app_length in L. cbn [length] in L. destruct p; cbn in L; lia.
  - destruct (str_eqb k k') eqn:Ek.
    + apply str_eqb_eq in Ek. subst k'. rewrite hole_text, replace_all_hit by discriminate. rewrite IH. auto.
    + change (pieces_text [Hole k']) with (piece_text (Hole k') ++ []). rewrite app_nil_r. rewrite hole_text.
      rewrite replace_all_pass; [rewrite IH; auto|]. intros j J.
      destruct (has_prefix (placeholder k) (skipn j (placeholder k' ++ pieces_text l))) eqn:P; auto. exfalso.
      apply placeholder_prefix in P as (t & E).
      destruct (mark_occurrence (Hole k' :: l) (firstn j (placeholder k') ++ !"$$") (k ++ !"$$" ++ t)) as (l1 & k1 & l2 & El & Ea & Eb); auto.
      { rewrite pieces_cons, hole_text. rewrite <- (firstn_skipn j (placeholder k' ++ pieces_text l)), E.
        rewrite firstn_app. replace (j - length (placeholder k')) with 0 by lia. cbn [firstn]. rewrite app_nil_r, <- app_assoc. auto. }
      apply app_inv_tail in Ea. destruct l1 as [|p l1].
      * injection El as -> ->. assert (k = k1); [|subst; rewrite str_eqb_refl in Ek; discriminate].
        cbn [app] in Eb. apply dollar_split in Eb as [-> _]; auto; apply hex_no_dollar; auto. apply H. left. auto.
      * injection El as <- ->. rewrite pieces_cons, hole_text in Ea.
        assert (L : length (firstn j (placeholder k')) = length (placeholder k' ++ pieces_text l1)) by (rewrite Ea; auto).
        rewrite firstn_length, app_length in L. lia.
Qed.

(** ** Values *)

Section Values.
  Variable value : str -> option (list piece).

  Lemma filled_app : forall a b s t, filled value a s -> filled value b t -> filled value (a ++ b) (s ++ t).
  Proof.
    intros a b s t H. induction H as [|c l s H IH|k v l s1 s2 V H1 IH1 H2 IH2]; intros Hb; cbn [app]; auto.
    - apply filled_chr; auto.
    - rewrite <- app_assoc. eapply filled_hole; eauto.
  Qed.

  Lemma filled_app_inv : forall a b t, filled value (a ++ b) t -> exists s1 s2, t = s1 ++ s2 /\ filled value a s1 /\ filled value b s2.
  Proof.
    induction a as [|p a IH]; intros b t H; cbn [app] in H.
    - exists [], t. repeat split; auto. constructor.
    - inversion H; subst.
      + match goal with K : filled value (a ++ b) _ |- _ => destruct (IH _ _ K) as (s1 & s2 & -> & A & B) end.
        exists (c :: s1), s2. repeat split; auto. apply filled_chr; auto.
      + match goal with K : filled value (a ++ b) _ |- _ => destruct (IH _ _ K) as (s1 & s2 & -> & A & B) end.
        eexists (_ ++ s1), s2. rewrite <- app_assoc. repeat split; auto.
        eapply filled_hole; eauto.
  Qed.

  Lemma filled_chars : forall w t, filled value (map Chr w) t -> t = w.
  Proof. induction w; intros t H; inversion H; subst; auto. f_equal. auto. Qed.

  Lemma filled_det : forall l s, filled value l s -> forall t, filled value l t -> s = t.
  Proof.
    induction 1 as [|c l s H IH|k v l s1 s2 V H1 IH1 H2 IH2]; intros t K; inversion K; subst; auto.
    - f_equal; auto.
    - rewrite V in H3. injection H3 as <-. f_equal; auto.
  Qed.

  Lemma filled_clean : forall l t, filled value l t -> contains mark t = false -> clean_pieces l.
  Proof.
    intros l t F C l1 w l2 ->. apply filled_app_inv in F as (s1 & s2 & -> & _ & F). apply filled_app_inv in F as (s3 & s4 & -> & F & _).
    apply filled_chars in F. subst s3. apply contains_false. intros a b ->. rewrite contains_false in C.
    apply (C (s1 ++ a) (b ++ s4)). rewrite <- !app_assoc. auto.
  Qed.

  Lemma filled_subst : forall k v l t, value k = Some v -> filled value l t -> filled value (subst_pieces k v l) t.
  Proof.
    intros k v l t V F. induction F as [|c l s H IH|k' v' l s1 s2 V' H1 IH1 H2 IH2]; unfold subst_pieces; cbn [flat_map].
    - constructor.
    - fold (subst_pieces k v l). cbn [subst_piece app]. apply filled_chr; auto.
    - fold (subst_pieces k v l). cbn [subst_piece]. destruct (str_eqb k k') eqn:E.
      + apply str_eqb_eq in E. subst. rewrite V in V'. injection V' as <-. apply filled_app; auto.
      + cbn [app]. eapply filled_hole; eauto.
  Qed.

  (** The depth of nesting *)
  Fixpoint deep (n : nat) (l : list piece) : Prop :=
    forall k, In (Hole k) l -> match n with O => False | S n' => exists v, value k = Some v /\ deep n' v end.

  Definition deep_key (n : nat) (k : str) : Prop := match n with O => False | S n' => exists v, value k = Some v /\ deep n' v end.

  Lemma deep_def : forall n l, deep n l <-> forall k, In (Hole k) l -> deep_key n k.
  Proof. intros [|n] l; reflexivity. Qed.

  Lemma deep_mono : forall n l, deep n l -> deep (S n) l.
  Proof.
    induction n as [|n IH]; intros l H; rewrite deep_def in *; intros k I; specialize (H k I).
    - destruct H.
    - destruct H as (v & V & D). exists v. split; auto.
  Qed.
  Lemma deep_le : forall m n l, n <= m -> deep n l -> deep m l.
  Proof. induction m; intros n l L H; [inversion L; subst; auto|]. inversion L; subst; auto. apply deep_mono. eapply IHm; eauto. Qed.

  Lemma filled_deep : forall l t, filled value l t -> exists n, deep n l.
  Proof.
    induction 1 as [|c l s H [n IH]|k v l s1 s2 V H1 [n1 IH1] H2 [n2 IH2]].
    - exists 0. intros k [].
    - exists n. rewrite deep_def in *. intros k [I|I]; [discriminate|auto].
    - exists (S (max n1 n2)). rewrite deep_def. intros k' [I|I].
      + injection I as ->. exists v. split; auto. eapply deep_le; [|eauto]. lia.
      + assert (deep (S (max n1 n2)) l) as D by (eapply deep_le; [|exact IH2]; lia). rewrite deep_def in D. auto.
  Qed.

  Lemma subst_in : forall k v l k', In (Hole k') (subst_pieces k v l) -> (In (Hole k') l /\ k' <> k) \/ (In (Hole k) l /\ In (Hole k') v).
  Proof.
    intros k v l k' I. unfold subst_pieces in I. apply in_flat_map in I as ([c|k1] & I1 & I2); cbn [subst_piece] in I2.
    - destruct I2 as [|[]]; discriminate.
    - destruct (str_eqb k k1) eqn:E; [apply str_eqb_eq in E; subst k1; auto|]. destruct I2 as [I2|[]]. injection I2 as ->. left. split; auto.
      intros ->. rewrite str_eqb_refl in E. discriminate.
  Qed.

  (** ** Rounds *)

  Variable m : list (str * str).
  Hypothesis represents : forall k, lookup k m = option_map pieces_text (value k).
  Hypothesis keys : forall k v, value k = Some v -> Forall hexadecimal k.

  Lemma filled_hex : forall l t, filled value l t -> hex_holes l.
  Proof.
    induction 1 as [|c l s H IH|k v l s1 s2 V H1 IH1 H2 IH2]; intros k' I; [destruct I| |].
    - destruct I as [I|I]; [discriminate|auto].
    - destruct I as [I|I]; [injection I as <-; eapply keys; eauto|auto].
  Qed.

  Lemma round_spec : forall n order l t, filled value l t -> contains mark t = false ->
    (forall k, In k order -> exists v, value k = Some v) ->
    (forall k, In (Hole k) l -> (In k order /\ deep_key (S n) k) \/ deep_key n k) ->
    exists l', replace_round m order (pieces_text l) = pieces_text l' /\ filled value l' t /\ deep n l'.
  Proof.
    intros n order. unfold replace_round. induction order as [|k order IH]; intros l t F C O D.
    - exists l. cbn [fold_left]. repeat split; auto. rewrite deep_def. intros k I. destruct (D k I) as [[[] _]|]; auto.
    - cbn [fold_left]. destruct (O k) as (v & V); [left; auto|]. rewrite represents, V. cbn [option_map].
      rewrite replace_pieces; [|eapply keys; eauto|eapply filled_clean; eauto|eapply filled_hex; eauto].
      apply IH; auto.
      + apply filled_subst; auto.
      + intros k' I. apply O. right. auto.
      + intros k' I. apply subst_in in I as [[I N]|[Ik I]].
        * destruct (D k' I) as [[[->|I'] Dk]|Dk]; auto. congruence.
        * right. assert (Dv : deep n v).
          { destruct (D k Ik) as [[_ Dk]|Dk].
            - destruct Dk as (v' & V' & D'). rewrite V in V'. injection V' as <-. auto.
            - destruct n; [destruct Dk|]. destruct Dk as (v' & V' & D'). rewrite V in V'. injection V' as <-. apply deep_mono. auto. }
          rewrite deep_def in Dv. auto.
  Qed.

  Lemma prefix_hole : forall l, contains templatePlaceholderPrefix (pieces_text l) = false -> forall k, ~ In (Hole k) l.
  Proof.
    intros l C k I. apply in_split in I as (l1 & l2 & ->). rewrite pieces_app, pieces_cons, hole_text in C.
    rewrite contains_false in C. unfold placeholder in C. apply (C (pieces_text l1) (k ++ !"$$" ++ pieces_text l2)).
    rewrite <- !app_assoc. auto.
  Qed.

  Lemma filled_plain : forall l t, filled value l t -> (forall k, ~ In (Hole k) l) -> t = pieces_text l.
  Proof.
    induction 1 as [|c l s H IH|k v l s1 s2 V H1 IH1 H2 IH2]; intros N; auto.
    - rewrite pieces_cons. cbn [piece_text app]. f_equal. apply IH. intros k I. apply (N k). right. auto.
    - exfalso. apply (N k). left. auto.
  Qed.

  Lemma order_values : forall order, iteration_order m order -> forall k, In k order -> exists v, value k = Some v.
  Proof.
    intros order [_ O] k I. apply O in I as (t & L). rewrite represents in L. destruct (value k) as [v|]; eauto. discriminate.
  Qed.

  Lemma value_order : forall order, iteration_order m order -> forall k v, value k = Some v -> In k order.
  Proof.
    intros order [_ O] k v V. apply O. rewrite represents, V. cbn [option_map]. eauto.
  Qed.

  Lemma mark_prefix_contains : forall t, contains mark t = false -> contains templatePlaceholderPrefix t = false.
  Proof.
    intros t C. apply contains_false. intros a b ->. rewrite contains_false in C. apply (C (a ++ !"$$") b).
    rewrite prefix_mark, <- !app_assoc. auto.
  Qed.

  Lemma one_round : forall order n l t, iteration_order m order -> filled value l t -> contains mark t = false -> deep (S n) l ->
    exists l', replace_round m order (pieces_text l) = pieces_text l' /\ filled value l' t /\ deep n l'.
  Proof.
    intros order n l t O F C D. apply round_spec; auto.
    - apply order_values; auto.
    - intros k I. rewrite deep_def in D. specialize (D k I). left. split; auto. destruct D as (v & V & _). eapply value_order; eauto.
  Qed.

  Theorem resolve_all : forall n l t, deep n l -> filled value l t -> contains mark t = false ->
    resolving_ends m (pieces_text l) /\ forall result, resolves m (pieces_text l) result -> result = t.
  Proof.
    induction n as [|n IH]; intros l t D F C.
    - assert (E : t = pieces_text l) by (apply filled_plain; auto; exact D).
      apply mark_prefix_contains in C. rewrite E in C. split.
      + apply ends_now. auto.
      + intros result R. inversion R; subst; auto. congruence.
    - destruct (contains templatePlaceholderPrefix (pieces_text l)) eqn:P.
      + split.
        * apply ends_later; auto. intros order O. destruct (one_round order n l t) as (l' & E & F' & D'); auto.
          rewrite E. apply (IH l' t); auto.
        * intros result R. inversion R as [|? order ? P' O R' E1 E2]; subst; [congruence|].
          destruct (one_round order n l t) as (l' & E & F' & D'); auto. rewrite E in R'.
          eapply (IH l' t); eauto.
      + assert (E : t = pieces_text l) by (apply filled_plain; auto; apply prefix_hole; auto).
        split; [apply ends_now; auto|]. intros result R. inversion R; subst; auto. congruence.
  Qed.

End Values.

(** There is always an order *)
Lemma some_order : forall m, exists order, iteration_order m order.
Proof.
  intros m. exists (nodup (list_eq_dec ascii_dec) (map fst m)). split.
  - apply NoDup_nodup.
  - intros k. rewrite nodup_In. induction m as [|[k1 v1] m IH]; cbn [map fst lookup].
    + split; [intros []|intros (v & V); discriminate].
    + destruct (str_eqb k k1) eqn:E.
      * apply str_eqb_eq in E. split; [eauto|]. left. auto.
      * split; [|intros L; right; apply IH; auto]. intros [->|I]; [rewrite str_eqb_refl in E; discriminate|]. apply IH. auto.
Qed.

(** If replacing ends then it has a result *)
Lemma ends_result : forall m content, resolving_ends m content -> exists result, resolves m content result.
Proof.
  intros m content H. induction H as [content P|content P H IH].
  - exists content. apply resolves_end. auto.
  - destruct (some_order m) as (order & O). destruct (IH order O) as (r & R). exists r. eapply resolves_round; eauto.
Qed.
