(** * Proofs about SVG files *)

From Coq Require Import Ascii String.
From Coq Require Import List Arith Bool Lia.
From Verif Require Import GoStr GoStrFacts TextFacts SvgModel SvgSpec.
Import ListNotations.
Local Open Scope list_scope.

Lemma dq_neq_space : dq_char <> " "%char.
Proof. discriminate. Qed.

Ltac find_in_list := first [left; reflexivity | right; find_in_list].

Definition key (x : str) : str := x ++ !"=" ++ dq.

Lemma special_clean : forall x, In x special -> ~ In dq_char x /\ ~ In " "%char x.
Proof. intros x [<-|[<-|[<-|[]]]]; split; intros H; repeat (destruct H as [H|H]; [discriminate H|]); exact H. Qed.

Lemma contains_attribute : forall x S n v, In x special -> contains (key x) S = false ->
  ~ In dq_char n -> ~ In " "%char n -> ~ In dq_char v -> has_suffix x n = false -> has_suffix (x ++ !"=") v = false ->
  contains (key x) (S ++ attribute_text (n, v)) = false.
Proof.
  intros x S n v X C N1 N2 N3 N4 N5.
  destruct (special_clean _ X) as [X1 X2].
  destruct (contains _ (S ++ _)) eqn:E; auto. exfalso.
  apply contains_spec in E as (u & w & E). unfold attribute_text, key, dq in E. cbn [fst snd] in E.
  assert (E' : (S ++ !" " ++ n ++ !"=") ++ dq_char :: (v ++ [dq_char]) = (u ++ x ++ !"=") ++ dq_char :: w).
  { rewrite <- !app_assoc. rewrite <- !app_assoc in E. exact E. }
  clear E. destruct (app_char_cases _ _ _ _ _ E') as [[A B]|[(z & A & B)|(z & A & B)]].
  - assert (A' : (S ++ !" ") ++ n = u ++ x).
    { apply app_inv_tail with !"=". rewrite <- !app_assoc. exact A. }
    destruct (app_app_cases _ _ _ _ A') as [(z & Z1 & Z2)|(z & Z1 & Z2)].
    + assert (H : has_suffix x n = true) by (apply has_suffix_spec; exists z; auto). congruence.
    + apply (f_equal (@rev ascii)) in Z1. rewrite !rev_app_distr in Z1. simpl in Z1.
      destruct (rev z) as [|y z'] eqn:Ez.
      * apply (f_equal (@rev ascii)) in Ez. rewrite rev_involutive in Ez. simpl in Ez. subst z.
        assert (H : has_suffix x n = true) by (apply has_suffix_spec; exists []; auto). congruence.
      * simpl in Z1. inversion Z1; subst y. apply X2. rewrite Z2. apply in_or_app. left.
        apply in_rev. rewrite Ez. left; auto.
  - (* v ++ dq = z ++ dq :: w with everything of the pattern behind *)
    assert (Z : z = v).
    { destruct (app_char_cases dq_char v [] z w B) as [[-> _]|[(y & _ & Y)|(y & Y & _)]]; auto.
      - destruct y; discriminate Y.
      - exfalso. apply N3. rewrite Y. apply in_or_app; right; left; auto. }
    subst z.
    assert (H : has_suffix (x ++ !"=") v = true); [|congruence].
    rewrite (app_assoc _ [dq_char] v : _ ++ dq_char :: v = _) in A.
    destruct (app_app_cases _ _ _ _ A) as [(y & Y1 & Y2)|(y & Y1 & Y2)].
    + destruct (rev y) as [|k y'] eqn:Ey.
      * apply (f_equal (@rev ascii)) in Ey. rewrite rev_involutive in Ey. simpl in Ey. subst y.
        apply has_suffix_spec. exists []. auto.
      * apply (f_equal (@rev ascii)) in Y1. rewrite !rev_app_distr, Ey in Y1. simpl in Y1. inversion Y1; subst k.
        exfalso. assert (I : In dq_char (x ++ !"=")).
        { rewrite Y2. apply in_or_app. left. apply in_rev. rewrite Ey. left; auto. }
        apply in_app_or in I as [I|[I|[]]]; [auto|discriminate I].
    + apply has_suffix_spec. exists y. auto.
  - rewrite (app_assoc u (x ++ !"=") (dq_char :: z) : _) in A || idtac.
    assert (A' : S ++ (!" " ++ n ++ !"=") = (u ++ x ++ !"=") ++ dq_char :: z) by (rewrite <- !app_assoc; rewrite <- !app_assoc in A; exact A).
    destruct (app_app_cases _ _ _ _ A') as [(y & Y1 & Y2)|(y & Y1 & Y2)].
    + assert (I : In dq_char (!" " ++ n ++ !"=")) by (rewrite Y2; apply in_or_app; right; left; auto).
      apply in_app_or in I as [[I|[]]|I]; [discriminate I|]. apply in_app_or in I as [I|[I|[]]]; [auto|discriminate I].
    + destruct y as [|k y].
      * discriminate Y2.
      * simpl in Y2. inversion Y2; subst k. apply contains_false with (a := u) (b := y) in C. apply C. rewrite Y1.
        unfold key. rewrite <- !app_assoc. reflexivity.
Qed.

(** Attributes before the first attribute called [x] *)
Lemma contains_attributes : forall x l S, In x special -> contains (key x) S = false ->
  (forall n v, In (n, v) l ->
     ~ In dq_char n /\ ~ In " "%char n /\ ~ In dq_char v /\ has_suffix x n = false /\ has_suffix (x ++ !"=") v = false) ->
  contains (key x) (S ++ concat (map attribute_text l)) = false.
Proof.
  induction l as [|[n v] l IH]; intros S X C H; cbn [map concat].
  - rewrite app_nil_r. auto.
  - rewrite app_assoc. destruct (H n v) as (H1 & H2 & H3 & H4 & H5); [left; auto|].
    apply IH; auto.
    + apply contains_attribute; auto.
    + intros; apply H; right; auto.
Qed.

Lemma contains_app_sep : forall x S, In x special -> contains (key x) S = false -> contains (key x) (S ++ !" ") = false.
Proof.
  intros x S X C. destruct (contains _ (S ++ _)) eqn:E; auto. exfalso.
  apply contains_spec in E as (u & w & E).
  destruct (rev w) as [|k w'] eqn:Ew.
  - apply (f_equal (@rev ascii)) in Ew. rewrite rev_involutive in Ew. cbn in Ew. subst w. rewrite app_nil_r in E.
    unfold key, dq in E. rewrite !app_assoc in E. apply (f_equal (@rev ascii)) in E. rewrite !rev_app_distr in E. simpl in E. inversion E.
  - apply (f_equal (@rev ascii)) in Ew. rewrite rev_involutive in Ew. simpl in Ew. subst w.
    rewrite !app_assoc in E. apply app_inj_tail in E as [E _]. apply contains_false with (a := u) (b := rev w') in C.
    apply C. rewrite E. rewrite <- app_assoc. reflexivity.
Qed.

(** Splitting the attributes at a name *)
Lemma value_split : forall x l v, value x l = Some v -> exists l1 l2, l = l1 ++ (x, v) :: l2 /\ ~ In x (map fst l1).
Proof.
  induction l as [|[n w] l IH]; intros v H; simpl in H; [discriminate|].
  destruct (str_eqb n x) eqn:E.
  - inversion H; subst. apply str_eqb_eq in E; subst. exists [], l. split; auto.
  - apply str_eqb_neq in E. destruct (IH _ H) as (l1 & l2 & -> & N). exists ((n, w) :: l1), l2. split; auto.
    simpl. intros [K|K]; auto.
Qed.

Lemma set_value_other : forall x new l, ~ In x (map fst l) -> set_value x new l = l.
Proof.
  induction l as [|[n w] l IH]; intros N; simpl; auto. destruct (str_eqb n x) eqn:E.
  - apply str_eqb_eq in E; subst. exfalso; apply N; left; auto.
  - f_equal. apply IH. intros K; apply N; right; auto.
Qed.

Lemma set_value_split : forall x new l1 v l2, ~ In x (map fst l1) -> ~ In x (map fst l2) ->
  set_value x new (l1 ++ (x, v) :: l2) = l1 ++ (x, new) :: l2.
Proof.
  intros. unfold set_value. rewrite map_app. simpl. rewrite str_eqb_refl. f_equal.
  - apply (set_value_other x new l1 H).
  - f_equal. apply (set_value_other x new l2 H0).
Qed.

Lemma value_set_value_neq : forall x y new l, x <> y -> value x (set_value y new l) = value x l.
Proof.
  induction l as [|[n w] l IH]; intros N; simpl; auto. destruct (str_eqb n y) eqn:E; simpl.
  - apply str_eqb_eq in E; subst. destruct (str_eqb y x) eqn:E2; auto. apply str_eqb_eq in E2; congruence.
  - destruct (str_eqb n x); auto.
Qed.

Lemma svg_text_at : forall before l1 x v l2 rest,
  svg_text before (l1 ++ (x, v) :: l2) rest =
  ((before ++ !"<svg") ++ concat (map attribute_text l1) ++ !" ") ++ (key x ++ v ++ dq) ++ concat (map attribute_text l2) ++ rest.
Proof.
  intros. unfold svg_text. rewrite map_app, concat_app. cbn [map concat]. unfold attribute_text at 2, key. cbn [fst snd].
  rewrite <- !app_assoc. reflexivity.
Qed.

Lemma ordinary_before : forall before l1 x v l2, In x special -> ordinary before (l1 ++ (x, v) :: l2) ->
  contains (key x) ((before ++ !"<svg") ++ concat (map attribute_text l1) ++ !" ") = false.
Proof.
  intros before l1 x v l2 X (O1 & O2 & O3).
  rewrite app_assoc. apply contains_app_sep; auto. apply contains_attributes; auto.
  - apply O1; auto.
  - intros n w I. destruct (O3 n w) as (A & B & C & D); [apply in_or_app; auto|].
    destruct (D x X) as (D1 & D2). repeat split; auto.
    destruct (has_suffix x n) eqn:E; auto. specialize (D1 eq_refl). subst n. exfalso.
    rewrite map_app in O2. simpl in O2. apply NoDup_remove_2 in O2. apply O2, in_or_app; left.
    apply in_map_iff. exists (x, w); auto.
Qed.

Lemma index_attribute : forall before l1 x v l2 rest r t, In x special -> ordinary before (l1 ++ (x, v) :: l2) ->
  v ++ dq ++ concat (map attribute_text l2) ++ rest = r ++ t ->
  index (key x ++ r) (svg_text before (l1 ++ (x, v) :: l2) rest) =
  Some (length ((before ++ !"<svg") ++ concat (map attribute_text l1) ++ !" ")).
Proof.
  intros before l1 x v l2 rest r t X O R. rewrite svg_text_at.
  pose proof (ordinary_before _ _ _ _ _ X O) as C. destruct (special_clean _ X) as [N _].
  remember ((before ++ !"<svg") ++ concat (map attribute_text l1) ++ !" ") as S.
  assert (K : key x = (x ++ !"=") ++ [dq_char]) by (unfold key, dq; rewrite app_assoc; reflexivity).
  rewrite <- !app_assoc. rewrite R. rewrite K in *. rewrite (app_assoc _ r t). apply index_fresh; auto.
  intros I; apply in_app_or in I as [I|[I|[]]]; [auto|discriminate I].
Qed.

Lemma replace_attribute : forall before l1 x v new l2 rest, In x special -> ordinary before (l1 ++ (x, v) :: l2) ->
  replace_first (key x ++ v ++ dq) (key x ++ new ++ dq) (svg_text before (l1 ++ (x, v) :: l2) rest) =
  svg_text before (l1 ++ (x, new) :: l2) rest.
Proof.
  intros. unfold replace_first.
  rewrite (index_attribute before l1 x v l2 rest (v ++ dq) (concat (map attribute_text l2) ++ rest)); auto.
  2:{ rewrite <- app_assoc. reflexivity. }
  rewrite !svg_text_at. remember ((before ++ !"<svg") ++ concat (map attribute_text l1) ++ !" ") as S.
  rewrite firstn_app, Nat.sub_diag, firstn_all, firstn_O, app_nil_r. f_equal.
  rewrite <- !app_assoc. f_equal. f_equal. f_equal.
  rewrite skipn_app, skipn_all2 by lia. replace (length S + _ - length S) with (length (key x ++ v ++ dq)) by lia.
  cbn [app]. replace (key x ++ v ++ dq ++ concat (map attribute_text l2) ++ rest) with
    ((key x ++ v ++ dq) ++ concat (map attribute_text l2) ++ rest) by (rewrite <- !app_assoc; reflexivity).
  rewrite skipn_app, skipn_all, Nat.sub_diag. reflexivity.
Qed.

Lemma set_value_names : forall x new l, map fst (set_value x new l) = map fst l.
Proof. induction l as [|[n w] l IH]; simpl; auto. destruct (str_eqb n x); simpl; f_equal; auto. Qed.

Lemma ordinary_set : forall before x new l, In x special -> ordinary before l -> ~ In dq_char new -> has_suffix !"=" new = false ->
  ordinary before (set_value x new l).
Proof.
  intros before x new l X (O1 & O2 & O3) N1 N2. split; [auto|split].
  - rewrite set_value_names. auto.
  - intros n v I. apply in_map_iff in I as ([n' v'] & E & I). cbn [fst] in E.
    destruct (O3 _ _ I) as (A & B & C & D). destruct (str_eqb n' x); inversion E; subst; repeat split; auto.
    + apply D; auto.
    + destruct (has_suffix (x0 ++ _) v) eqn:K; auto. apply has_suffix_spec in K as (t & ->).
      rewrite app_assoc, has_suffix_app in N2. discriminate.
    + apply D; auto.
    + apply D; auto.
Qed.

Lemma replace_set : forall before x v new l rest, In x special -> ordinary before l -> value x l = Some v ->
  replace_first (key x ++ v ++ dq) (key x ++ new ++ dq) (svg_text before l rest) = svg_text before (set_value x new l) rest.
Proof.
  intros before x v new l rest X O V. destruct (value_split _ _ _ V) as (l1 & l2 & -> & N).
  rewrite replace_attribute; auto. rewrite set_value_split; auto.
  destruct O as (_ & O & _). rewrite map_app in O. simpl in O. apply NoDup_remove_2 in O.
  intros K; apply O, in_or_app; auto.
Qed.

Lemma split3_head : forall a b c, ~ In dq_char a -> ~ In dq_char b -> split3 dq (a ++ dq ++ b ++ dq ++ c) = [a; b; c].
Proof.
  intros a b c A B. unfold split3, split2, dq. simpl app.
  rewrite index_single_app; auto. rewrite firstn_app, Nat.sub_diag, firstn_all, firstn_O, app_nil_r.
  replace (skipn (length a + length [dq_char]) (a ++ dq_char :: b ++ dq_char :: c)) with (b ++ dq_char :: c).
  2:{ rewrite skipn_app, skipn_all2 by lia. simpl length. replace (length a + 1 - length a) with 1 by lia. reflexivity. }
  rewrite index_single_app; auto. rewrite firstn_app, Nat.sub_diag, firstn_all, firstn_O, app_nil_r.
  f_equal. f_equal. f_equal. rewrite skipn_app, skipn_all2 by (simpl; lia). simpl length.
  replace (length b + 1 - length b) with 1 by lia. reflexivity.
Qed.

Lemma in_special_width : In !"width" special.
Proof. left; reflexivity. Qed.
Lemma in_special_height : In !"height" special.
Proof. right; left; reflexivity. Qed.
Lemma in_special_viewBox : In !"viewBox" special.
Proof. right; right; left; reflexivity. Qed.

Lemma has_suffix_pt : forall w, has_suffix !"=" (w ++ !"pt") = false.
Proof. intros w. unfold has_suffix. rewrite rev_app_distr. reflexivity. Qed.

(** The four numbers of a view box, separated by single commas or single spaces *)
Lemma replaceRelativeSize_spec : forall before l rest w0 h0 sep x y w h,
  ordinary before l ->
  value !"width" l = Some w0 -> value !"height" l = Some h0 ->
  value !"viewBox" l = Some (join [sep] [x; y; w; h]) ->
  (sep = ","%char \/ sep = " "%char) ->
  (forall z c, In z [x; y; w; h] -> (c = ","%char \/ c = " "%char) -> ~ In c z) ->
  replaceRelativeSizeByViewboxSize (svg_text before l rest) w0 h0 =
  svg_text before (set_value !"height" (h ++ !"pt") (set_value !"width" (w ++ !"pt") l)) rest.
Proof.
  intros before l rest w0 h0 sep x y w h O W H V Sep N.
  assert (Nq : ~ In dq_char (join [sep] [x; y; w; h])).
  { destruct O as (_ & _ & O). destruct (value_split _ _ _ V) as (l1 & l2 & -> & _).
    destruct (O _ _ ltac:(apply in_or_app; right; left; reflexivity)) as (_ & _ & Q & _). exact Q. }
  assert (Nw : ~ In dq_char w /\ ~ In dq_char h).
  { simpl in Nq. split; intros K; apply Nq; apply in_or_app; right; right; apply in_or_app; right; right; apply in_or_app.
    - left; exact K.
    - right; right; exact K. }
  destruct Nw as [Nw Nh].
  assert (Sp : (if contains !"," (join [sep] [x; y; w; h]) then Some (split !"," (join [sep] [x; y; w; h]))
            else if contains !" " (join [sep] [x; y; w; h]) then Some (split !" " (join [sep] [x; y; w; h])) else None) = Some [x; y; w; h]).
  { assert (Spl : split [sep] (join [sep] [x; y; w; h]) = [x; y; w; h]).
    { apply split_join_single; [discriminate|]. repeat constructor; apply N; auto; find_in_list. }
    assert (Csep : contains [sep] (join [sep] [x; y; w; h]) = true).
    { apply contains_single. simpl. apply in_or_app; right; left; auto. }
    destruct Sep as [->| ->].
    - rewrite Csep, Spl. reflexivity.
    - replace (contains !"," _) with false.
      + rewrite Csep, Spl. reflexivity.
      + symmetry. apply contains_single_false. intros K. simpl in K.
        repeat (apply in_app_or in K as [K|[K|K]]; [revert K; apply N; auto; find_in_list|discriminate K|]).
        revert K; apply N; auto; find_in_list. }
  unfold replaceRelativeSizeByViewboxSize.
  destruct (value_split _ _ _ V) as (l1 & l2 & El & _).
  pose proof O as O'. rewrite El in O'.
  pose proof (index_attribute before l1 !"viewBox" (join [sep] [x; y; w; h]) l2 rest [] _ in_special_viewBox O' eq_refl) as I.
  rewrite app_nil_r in I. rewrite <- El in I. change (key !"viewBox") with (!"viewBox=" ++ dq) in I.
  rewrite I.
  assert (Sk : skipn (length ((before ++ !"<svg") ++ concat (map attribute_text l1) ++ !" ")) (svg_text before l rest) =
               !"viewBox=" ++ dq ++ join [sep] [x; y; w; h] ++ dq ++ concat (map attribute_text l2) ++ rest).
  { rewrite El, svg_text_at. rewrite skipn_app, skipn_all, Nat.sub_diag. unfold key. rewrite <- !app_assoc. reflexivity. }
  rewrite Sk, split3_head; auto.
  2:{ intros K; repeat (destruct K as [K|K]; [discriminate K|]); exact K. }
  rewrite Sp. clear Sp I Sk.
  pose proof (replace_set before _ w0 (w ++ !"pt") l rest in_special_width O W) as R1.
  unfold key in R1. rewrite <- !app_assoc in R1.
  match type of R1 with ?a = ?b => match goal with |- context [replace_first ?p ?q ?s] => change (replace_first p q s) with a end end.
  rewrite R1. clear R1.
  assert (O2 : ordinary before (set_value !"width" (w ++ !"pt") l)).
  { apply ordinary_set; auto.
    - apply in_special_width.
    - intros K. apply in_app_or in K as [K|K]; auto. repeat (destruct K as [K|K]; [discriminate K|]); exact K.
    - apply has_suffix_pt. }
  assert (H2 : value !"height" (set_value !"width" (w ++ !"pt") l) = Some h0) by (rewrite value_set_value_neq; [auto|discriminate]).
  pose proof (replace_set before _ h0 (h ++ !"pt") _ rest in_special_height O2 H2) as R2.
  unfold key in R2. rewrite <- !app_assoc in R2.
  exact R2.
Qed.

Theorem resize_general : forall parse before l rest w0 h0 sep x y w h,
  reads_size parse before l rest -> ordinary before l ->
  value !"width" l = Some w0 -> value !"height" l = Some h0 ->
  value !"viewBox" l = Some (join [sep] [x; y; w; h]) ->
  (sep = ","%char \/ sep = " "%char) ->
  (forall z c, In z [x; y; w; h] -> (c = ","%char \/ c = " "%char) -> ~ In c z) ->
  relative w0 \/ ~ relative h0 ->
  MakeSvgSizeAbsolute parse (svg_text before l rest) =
  Ok (svg_text before (set_value !"height" (h ++ !"pt") (set_value !"width" (w ++ !"pt") l)) rest).
Proof.
  intros parse before l rest w0 h0 sep x y w h R O W H V Sep N Rel.
  unfold MakeSvgSizeAbsolute. rewrite R, W, H. cbn [or_empty].
  replace (negb (has_suffix !"%" w0) && has_suffix !"%" h0) with false.
  2:{ unfold relative in Rel. destruct (has_suffix !"%" w0), (has_suffix !"%" h0); simpl; auto. destruct Rel as [Rel|Rel]; [discriminate|].
      exfalso; apply Rel; reflexivity. }
  rewrite (replaceRelativeSize_spec before l rest w0 h0 sep x y w h); auto.
Qed.

Theorem relative_height_kept : forall parse before l rest,
  reads_size parse before l rest ->
  ~ relative (or_empty (value !"width" l)) -> relative (or_empty (value !"height" l)) ->
  MakeSvgSizeAbsolute parse (svg_text before l rest) = Ok (svg_text before l rest).
Proof.
  intros parse before l rest R W H. unfold MakeSvgSizeAbsolute. rewrite R. unfold relative in *.
  apply not_true_is_false in W. rewrite W, H. reflexivity.
Qed.

(** Whatever the file: without a view box nothing changes. *)
Theorem no_viewbox_kept : forall parse file f, contains (!"viewBox=" ++ dq) file = false ->
  MakeSvgSizeAbsolute parse file = Ok f -> f = file.
Proof.
  intros parse file f C. unfold MakeSvgSizeAbsolute, replaceRelativeSizeByViewboxSize.
  destruct (parse file) as [[w h]|]; [|discriminate]. apply contains_false_index in C. rewrite C.
  destruct (_ && _); congruence.
Qed.
