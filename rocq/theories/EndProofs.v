(** * Parsing ends: every pass leaves the text as it is or makes it smaller *)

From Coq Require Import Ascii String.
From Coq Require Import List Arith NArith ZArith Bool Lia.
From Verif Require Import GoStr GoStrFacts TextFacts TrimFacts UtilModel ConfigModel BracketModel BracketProofs LinkProofs BlockPassProofs FormattingSpec FormattingProofs SafeTextProofs EndTextProofs.
From Verif Require Import TokenModel FormattingModel ParagraphModel HeadingModel LinkModel ImageModel ListModel TableModel ReferenceModel TokenizerModel.
Import ListNotations.
Local Open Scope list_scope.

(** ** Computations with more and more fuel *)

(** For all sufficiently large numbers the result is the same; it is a crash, an error or a value with [Q]. *)
Definition ends {A} (m : nat -> M A) (Q : A -> Prop) : Prop :=
  forall t, exists n r, (forall fuel, n <= fuel -> m fuel t = r) /\ match r with Ok (a, _) => Q a | OutOfFuel => False | _ => True end.

Lemma ends_always : forall A (m : M A) (Q : A -> Prop), (forall t, match m t with Ok (a, _) => Q a | OutOfFuel => False | _ => True end) -> ends (fun _ => m) Q.
Proof. intros A m Q H t. exists 0, (m t). split; [auto|exact (H t)]. Qed.

Lemma ends_ret : forall A (a : A) (Q : A -> Prop), Q a -> ends (fun _ => ret a) Q.
Proof. intros A a Q H. apply ends_always. intros t. exact H. Qed.

Lemma ends_panic : forall A Q, ends (fun _ => @panic A) Q.
Proof. intros A Q. apply ends_always. intros t. exact I. Qed.

Lemma ends_bind : forall A C (m : nat -> M A) (k : nat -> A -> M C) P Q, ends m P -> (forall a, P a -> ends (fun n => k n a) Q) ->
  ends (fun n => bindM (m n) (k n)) Q.
Proof.
  intros A C m k P Q H K t. destruct (H t) as (n & r & E & R). unfold bindM. destruct r as [[a t']| | |].
  - destruct (K a R t') as (n' & r' & E' & R'). exists (max n n'), r'. split; auto. intros fuel F. rewrite E by lia. apply E'. lia.
  - exists n, Err. split; auto. intros fuel F. rewrite E; auto.
  - exists n, Panic. split; auto. intros fuel F. rewrite E; auto.
  - contradiction.
Qed.

Lemma ends_weaken : forall A (m : nat -> M A) (P Q : A -> Prop), (forall a, P a -> Q a) -> ends m P -> ends m Q.
Proof. intros A m P Q W H t. destruct (H t) as (n & r & E & R). exists n, r. split; auto. destruct r as [[a t']| | |]; auto. Qed.

Lemma ends_shift : forall A (m : nat -> M A) Q, ends m Q -> ends (fun n => match n with O => out_of_fuel | S n' => m n' end) Q.
Proof.
  intros A m Q H t. destruct (H t) as (n & r & E & R). exists (S n), r. split; auto. intros [|fuel] F; [lia|]. apply E. lia.
Qed.

Lemma ends_mapM : forall A C (f : nat -> A -> M C) (R : A -> C -> Prop) l, (forall a, In a l -> ends (fun n => f n a) (R a)) ->
  ends (fun n => mapM (f n) l) (Forall2 R l).
Proof.
  intros A C f R l. induction l as [|a l IH]; intros H; cbn [mapM]; [apply ends_ret, Forall2_nil|].
  eapply ends_bind; [apply H; left; auto|]. intros c Rc. eapply ends_bind; [apply IH; intros; apply H; right; auto|]. intros cs Rs. apply ends_ret.
  apply Forall2_cons; auto.
Qed.

Definition whatever {A} (a : A) : Prop := True.

Lemma ends_setRawToken : forall k v, ends (fun _ => setRawToken k v) whatever.
Proof. intros. apply ends_always. intros t. exact I. Qed.


Lemma ends_ext : forall A (m m' : nat -> M A) Q, (forall n, m n = m' n) -> ends m Q -> ends m' Q.
Proof. intros A m m' Q E H t. destruct (H t) as (n & r & F & R). exists n, r. split; auto. intros fuel L. rewrite <- E. auto. Qed.

Lemma ends_getToken : forall ty, neutral ty -> ends (fun _ => getToken ty) neutral.
Proof. intros ty H. apply ends_always. intros t. apply key_neutral. exact H. Qed.

Lemma ends_lift : forall A (r : res A) (Q : A -> Prop), match r with Ok a => Q a | OutOfFuel => False | _ => True end -> ends (fun _ => lift r) Q.
Proof. intros A r Q H. apply ends_always. intros t. unfold lift. destruct r; cbn [bind]; auto. Qed.

Ltac neutral_type := apply neutral_list; reflexivity.

(** ** Nowiki *)

Lemma ignore_case_less : forall s tag, EqualsIgnoreCase s tag = true -> less s = less tag.
Proof.
  intros s tag H. unfold EqualsIgnoreCase in H. apply str_eqb_eq in H. unfold less. rewrite <- (count_lower is_less lower_less s), H.
  apply count_lower. exact lower_less.
Qed.

Lemma prefix_ignore_case_less : forall s tag, HasPrefixIgnoreCase s tag = true -> exists a b, s = a ++ b /\ length a = length tag /\ less a = less tag /\ special a = special tag.
Proof.
  intros s tag H. unfold HasPrefixIgnoreCase in H. apply has_prefix_firstn in H. exists (firstn (length tag) s), (skipn (length tag) s).
  unfold to_lower in H. rewrite map_length, firstn_map in H. rewrite firstn_skipn. split; auto.
  assert (L : length (firstn (length tag) s) = length tag). { rewrite <- (map_length lower_char), H, map_length. auto. }
  split; [exact L|]. split.
  - unfold less. rewrite <- (count_lower is_less lower_less (firstn _ s)). unfold to_lower. rewrite H. apply (count_lower is_less lower_less).
  - unfold special. rewrite <- (count_lower is_special lower_special (firstn _ s)). unfold to_lower. rewrite H. apply (count_lower is_special lower_special).
Qed.

Lemma ignore_case_tag : forall c x y, EqualsIgnoreCase (c :: x) ("<"%char :: y) = true -> c = "<"%char.
Proof.
  intros c x y H. unfold EqualsIgnoreCase in H. apply str_eqb_eq in H. cbn [to_lower map] in H. apply (lower_symbol c "<"%char); [left; left; auto|].
  apply (f_equal (hd zero)) in H. exact H.
Qed.

(** The pass is applied to no place of the text. *)
Definition nowhere (f : str -> bool) (s : str) : Prop := forall a b, s = a ++ b -> f b = false.
Lemma nowhere_nil : forall f, f [] = false -> nowhere f [].
Proof. intros f H a b E. destruct a; [|discriminate]. destruct b; [exact H|discriminate]. Qed.
Lemma nowhere_cons : forall f c s, f (c :: s) = false -> nowhere f s -> nowhere f (c :: s).
Proof. intros f c s H N [|x a] b E; [cbn in E; subst; auto|]. injection E as -> E. exact (N a b E). Qed.

Definition at_nowiki (rest : str) : bool :=
  (length nowikiEnd <? length rest) && EqualsIgnoreCase (firstn (length nowikiStart) rest) nowikiStart.

Lemma parseNowiki_go_ends : forall rest skip, ends (fun _ => parseNowiki_go rest skip)
  (fun r => less r <= less rest /\ (skip = 0 -> (r = rest /\ nowhere at_nowiki rest) \/ less r < less rest)).
Proof.
  induction rest as [|c rest IH]; intros skip; cbn [parseNowiki_go]; [apply ends_ret; split; auto; intros _; left; split; auto; apply nowhere_nil; reflexivity|]. destruct skip as [|k].
  - destruct (_ && _) eqn:T.
    + destruct (FindCorrespondingCloseTokenIgnoreCase _ _ _ _) as [e|] eqn:F; [|apply ends_panic].
      apply andb_true_iff in T as [_ T]. apply ignore_case_tag in T. subst c.
      eapply ends_bind; [apply ends_getToken; neutral_type|]. intros key K. eapply ends_bind; [apply ends_setRawToken|]. intros _ _.
      eapply ends_bind; [apply IH|]. intros r (R & _). apply ends_ret. unfold less in *. rewrite !count_app, (proj1 K : count is_less key = 0), count_cons.
      cbn [is_less Ascii.eqb Bool.eqb]. split; [lia|]. intros _. right. lia.
    + eapply ends_bind; [apply IH|]. intros r (R & E). apply ends_ret. unfold less in *. rewrite !count_cons. split; [lia|]. intros _.
      destruct (E eq_refl) as [(-> & N)|L]; [left; split; auto; apply nowhere_cons; auto|right; lia].
  - eapply ends_weaken; [|apply IH]. intros r (R & _). unfold less in *. rewrite count_cons. split; [lia|discriminate].
Qed.

Lemma parseNowiki_ends : forall s, ends (fun _ => parseNowiki s) (fun r => settled (nowhere at_nowiki) r s).
Proof. intros s. eapply ends_weaken; [|apply parseNowiki_go_ends]. intros r (_ & H). destruct (H eq_refl) as [(-> & N)|L]; [left; auto|right; left; auto]. Qed.

(** ** Bold and italic text *)

Lemma marker_neutral : forall m, neutral (marker_text m).
Proof. intros [[]|[]]; neutral_type. Qed.

Lemma neutral_concat : forall l, Forall neutral l -> neutral (concat l).
Proof. induction 1; cbn [concat]; [split; reflexivity|apply neutral_app; auto]. Qed.

Lemma grouped_shrinks : forall l, grouped l -> within (afters l) (befores l) /\ (afters l = befores l \/ special (afters l) < special (befores l)).
Proof.
  induction 1 as [|c l G (W & IH)|os k l N G (W & IH)].
  - split; [apply within_refl|left; auto].
  - change (afters (Text c :: l)) with ([c] ++ afters l). change (befores (Text c :: l)) with ([c] ++ befores l).
    split; [apply within_app; [apply within_refl|exact W]|]. destruct IH as [->|L]; [left; auto|right]. unfold special in *. rewrite !count_app. lia.
  - unfold afters, befores in *. rewrite !map_app, !concat_app.
    pose proof (toggle_fst os k N) as T. unfold afters in T. rewrite T. destruct (toggle_befores os k N) as (B & _). unfold befores in B. rewrite B.
    assert (K : neutral (concat (map marker_text (fst (toggle os k))))). { apply neutral_concat. rewrite Forall_map. apply Forall_forall. intros. apply marker_neutral. }
    split; [apply within_neutral; auto; apply within_skip; exact W|]. right. destruct K as [_ K], W as [_ W]. unfold special in *. rewrite !count_app, K.
    destruct k; cbn [quotes_of list_ascii_of_string]; rewrite !count_cons; cbn; lia.
Qed.

Lemma parseBoldAndItalic_ends : forall s, ends (fun _ => lift (parseBoldAndItalic s)) (fun r => shrinks r s).
Proof.
  intros s. apply ends_lift. destruct (parse_grouped s) as (l & -> & -> & G). destruct (grouped_shrinks l G) as (W & [E|L]); [left; auto|apply within_shrinks; auto].
Qed.

(** ** Lines *)

(** The passes that work on lines replace some of them. *)
Definition fewer (P : str -> Prop) (lines' lines : list str) : Prop :=
  (lines' = lines /\ Forall P lines) \/ (within (concat lines') (concat lines) /\ special (concat lines') < special (concat lines)).

Lemma fewer_settled : forall P lines s, fewer P lines (split nl s) -> settled (fun s => Forall P (split nl s)) (join nl lines) s.
Proof.
  intros P lines s [(-> & F)|(W & L)]; [left; split; auto; apply join_split; discriminate|].
  assert (E : forall l, special (join nl l) = special (concat l)) by (intros; apply count_join; reflexivity).
  assert (E' : forall l, less (join nl l) = less (concat l)) by (intros; apply count_join; reflexivity).
  assert (J : join nl (split nl s) = s) by (apply join_split; discriminate).
  right. apply below_lower. rewrite <- J. apply within_below; [unfold within in *; rewrite !E, !E'; exact W|]. rewrite !E. exact L.
Qed.

Lemma fewer_trans : forall (P Q : str -> Prop) a b c, fewer P a b -> fewer Q b c -> fewer (fun l => P l /\ Q l) a c.
Proof.
  intros P Q a b c [(-> & A)|(W & L)] [(-> & B)|(W' & L')]; try (right; auto; fail).
  - left. split; auto. rewrite Forall_forall in *. auto.
  - right. split; [eapply within_trans; eauto|lia].
Qed.

Lemma fewer_weaken : forall (P Q : str -> Prop) a b, (forall l, P l -> Q l) -> fewer P a b -> fewer Q a b.
Proof. intros P Q a b H [(E & F)|F]; [left; split; auto; eapply Forall_impl; eauto|right; auto]. Qed.

Lemma fewer_within : forall P a b, fewer P a b -> within (concat a) (concat b).
Proof. intros P a b [(-> & _)|(W & _)]; auto. apply within_refl. Qed.

Lemma fewer_cons : forall (P : str -> Prop) x a b, P x -> fewer P a b -> fewer P (x :: a) (x :: b).
Proof.
  intros P x a b H [(-> & F)|(W & L)]; [left; auto|right]. cbn [concat]. split; [apply within_app; [apply within_refl|auto]|].
  unfold special in *. rewrite !count_app. lia.
Qed.

Lemma fewer_first : forall P x y a b, within x y -> special x < special y -> within (concat a) (concat b) -> fewer P (x :: a) (y :: b).
Proof.
  intros P x y a b W L V. right. cbn [concat]. split; [apply within_app; auto|]. destruct V as [_ V]. unfold special in *. rewrite !count_app. lia.
Qed.

(** ** Headings *)

Section Recursive.
Variable cfg : configuration.
Variable tok : nat -> str -> M str.

(** What the recursive calls may do with a text *)
Definition tokenizes (x : str) : Prop := ends (fun n => tok n x) (fun r => less r < less x \/ (less r = less x /\ special r <= special x)).
(** All texts with less markup than [s] can be tokenized *)
Definition smaller (s : str) : Prop := forall x, within x s -> special x < special s -> tokenizes x.

Lemma smaller_within : forall x y, within x y -> smaller y -> smaller x.
Proof. intros x y W H z V L. apply H; [eapply within_trans; eauto|]. destruct W as [_ W]. lia. Qed.

Lemma special_repeat : forall n, special (repeat_str !"=" n) = n.
Proof. induction n as [|n IH]; auto. change (repeat_str !"=" (S n)) with ("="%char :: repeat_str !"=" n). unfold special in *. rewrite count_cons, IH. auto. Qed.

Lemma removed_special : forall old s, old <> [] -> special old <> 0 -> contains old s = true ->
  within (replace_all old [] s) s /\ special (replace_all old [] s) < special s.
Proof.
  intros old s N O C. rewrite replace_all_split, join_nil by auto. split; [apply within_split; auto|].
  destruct (split_parts old s N) as [(_ & I)|(a & b & E & ->)]; [apply contains_false_index in I; congruence|]. cbn [concat].
  pose proof (within_split old b N) as [_ W]. rewrite E. unfold special in *. rewrite !count_app. lia.
Qed.

Definition no_heading (depth : nat) (line : str) : Prop :=
  has_prefix (repeat_str !"=" depth) (trim_space line) && has_suffix (repeat_str !"=" depth) (trim_space line) = false.

Lemma parseHeadingLine_ends : forall depth line, smaller line -> ends (fun n => parseHeadingLine (tok n) (S depth) line)
  (fun r => (r = line /\ no_heading (S depth) line) \/ (within r line /\ special r < special line)).
Proof.
  intros depth line H. unfold parseHeadingLine, no_heading. destruct (_ && _) eqn:T; [|apply ends_ret; auto]. apply andb_true_iff in T as [T _].
  set (marker := repeat_str !"=" (S depth)) in *. assert (N : marker <> []) by discriminate. assert (O : special marker <> 0) by (unfold marker; rewrite special_repeat; lia).
  apply has_prefix_spec in T as (b & T).
  assert (C : contains marker (trim_space line) = true) by (apply contains_spec; exists [], b; exact T).
  destruct (removed_special marker (trim_space line) N O C) as (W & L). pose proof (within_trim line) as V.
  assert (P : special (trim_space line) <= special line) by apply V.
  eapply ends_bind; [apply ends_getToken; neutral_type|]. intros key K.
  eapply ends_bind; [apply H|].
  - eapply within_trans; [apply within_trim|]. eapply within_trans; eauto.
  - pose proof (within_trim (replace_all marker [] (trim_space line))) as [_ Q]. lia.
  - intros c _. eapply ends_bind; [apply ends_setRawToken|]. intros _ _. apply ends_ret. right. split; [apply neutral_within; auto|].
    destruct K as [_ ->]. lia.
Qed.

Lemma heading_lines : forall depth lines, (forall l, In l lines -> smaller l) -> ends (fun n => mapM (parseHeadingLine (tok n) (S depth)) lines)
  (fun r => fewer (no_heading (S depth)) r lines /\ Forall2 within r lines).
Proof.
  intros depth lines H. eapply ends_weaken; [|apply ends_mapM with (f := fun n => parseHeadingLine (tok n) (S depth)) (R := fun line r => (r = line /\ no_heading (S depth) line) \/ (within r line /\ special r < special line))].
  - intros r F. clear H. induction F as [|line x lines r E F (IH & V)]; [split; [left; auto|constructor]|]. split.
    + destruct E as [(-> & N)|(W & L)]; [apply fewer_cons; auto|]. apply fewer_first; auto. eapply fewer_within. exact IH.
    + constructor; auto. destruct E as [(-> & _)|(W & L)]; auto. apply within_refl.
  - intros line I. apply parseHeadingLine_ends. auto.
Qed.

Lemma parseHeadings_go_ends : forall depth lines, (forall l, In l lines -> smaller l) -> ends (fun n => parseHeadings_go (tok n) depth lines)
  (fun r => fewer (fun l => forall d, 1 <= d <= depth -> no_heading d l) r lines).
Proof.
  induction depth as [|depth IH]; intros lines H; cbn [parseHeadings_go]; [apply ends_ret; left; split; auto; apply Forall_forall; intros; lia|].
  eapply ends_bind; [apply heading_lines; auto|]. intros r (F & V). eapply ends_weaken; [|apply IH].
  - intros r' F'. eapply fewer_weaken; [|exact (fewer_trans _ _ _ _ _ F' F)]. intros l (A & B) d D. destruct (Nat.eq_dec d (S depth)) as [->|K]; [exact B|apply A; lia].
  - intros l I. clear F. induction V as [|x y r lines W V IHV]; [destruct I|]. destruct I as [<-|I].
    + eapply smaller_within; [exact W|]. apply H. left. auto.
    + apply IHV; auto. intros. apply H. right. auto.
Qed.

Lemma parseHeadings_ends : forall s, smaller s -> ends (fun n => parseHeadings (tok n) s)
  (fun r => settled (fun s => Forall (fun l => forall d, 1 <= d <= 7 -> no_heading d l) (split nl s)) r s).
Proof.
  intros s H. unfold parseHeadings. eapply ends_bind; [apply parseHeadings_go_ends|].
  - intros l I. eapply smaller_within; [|exact H]. eapply within_piece; [|exact I]. discriminate.
  - intros r F. apply ends_ret. apply fewer_settled. exact F.
Qed.

(** ** References *)

(** All texts with fewer tags than [s] can be tokenized *)
Definition lighter (s : str) : Prop := forall x, less x < less s -> tokenizes x.

Lemma lighter_le : forall x y, less y <= less x -> lighter x -> lighter y.
Proof. intros x y L H z K. apply H. lia. Qed.

Lemma less_app : forall a b, less (a ++ b) = less a + less b.
Proof. intros. apply count_app. Qed.

Lemma less_skipn : forall n s, less (skipn n s) <= less s.
Proof. intros. apply (within_skipn n s). Qed.

Lemma less_tag : forall b, less ("<"%char :: b) = S (less b).
Proof. intros. unfold less. rewrite count_cons. reflexivity. Qed.

Lemma skipn_tag : forall (a b : str) n, length a < n -> skipn n (a ++ "<"%char :: b) = skipn (n - S (length a)) b.
Proof. intros a b n H. rewrite skipn_app, skipn_all2 by lia. cbn [List.app]. replace (n - length a) with (S (n - S (length a))) by lia. reflexivity. Qed.

(** A short tag without a name *)
Definition nameless (u : str) : Prop := exists e, FindCorrespondingCloseTokenIgnoreCase u 4 !"<ref" !">" = Some e /\
  has_prefix !"/" (skipn (pred e) u) = true /\ getNameAttribute (sub u 4 e) = Ok [].

(** The result of a tag behind [a]: the text [a] and a rest that has no more tags than what is behind the tag *)
Definition consumed (a b r : str) : Prop :=
  (r = a ++ "<"%char :: b /\ nameless ("<"%char :: b)) \/ (less r <= less a + less b /\ less (skipn (S (length a)) r) <= less b).

Lemma consumed_replaced : forall a b x, less x <= less b -> consumed a b (a ++ x).
Proof.
  intros a b x L. right. rewrite less_app. split; [lia|]. rewrite skipn_app, skipn_all2 by lia. cbn [List.app]. pose proof (less_skipn (S (length a) - length a) x). lia.
Qed.

Lemma trim_newlines_part : forall s, exists r, s = trim_newlines s ++ r.
Proof.
  intros s. unfold trim_newlines. assert (H : forall s, exists r, s = r ++ drop_newlines s).
  { clear s. induction s as [|c s (r & IH)]; [exists []; auto|]. cbn [drop_newlines]. destruct (Ascii.eqb c nl_char); [exists (c :: r); cbn; congruence|exists []; auto]. }
  destruct (H (rev s)) as (r & E). exists (rev r). rewrite <- rev_app_distr, <- E, rev_involutive. auto.
Qed.

Lemma definitions_ends : forall numbers contents, ends (fun _ => definitions numbers contents) (fun r => less r = 0).
Proof.
  induction numbers as [|x numbers IH]; intros contents; cbn [definitions]; [apply ends_ret; auto|]. destruct (get_content x contents); [|apply IH].
  eapply ends_bind; [apply ends_getToken; neutral_type|]. intros key K. eapply ends_bind; [apply ends_setRawToken|]. intros _ _.
  eapply ends_bind; [apply IH|]. intros r R. apply ends_ret. rewrite !less_app, R, (proj1 K). reflexivity.
Qed.

Lemma endPlaceholder_ends : forall a b e g, length a <= e -> ends (fun _ => parseReferenceEndPlaceholder (a ++ "<"%char :: b) (length a) e g)
  (fun r => consumed a b (fst r)).
Proof.
  intros a b e g L. unfold parseReferenceEndPlaceholder. eapply ends_bind; [apply definitions_ends|]. intros keys K. apply ends_ret. cbn [fst]. right.
  rewrite firstn_app, Nat.sub_diag, firstn_all, firstn_O, app_nil_r. rewrite skipn_tag by lia.
  destruct (trim_newlines_part a) as (r1 & E1). set (a1 := trim_newlines a) in *. rewrite <- app_assoc.
  destruct (trim_newlines_part (a1 ++ nl ++ keys)) as (r2 & E2). set (p := trim_newlines (a1 ++ nl ++ keys)) in *.
  assert (La : less a = less a1 + less r1) by (rewrite E1 at 1; apply less_app).
  assert (Lp : less p + less r2 = less a1). { rewrite <- less_app, <- E2, !less_app, K. cbn. lia. }
  pose proof (less_skipn (S e - S (length a)) b) as Lb. rewrite less_app. split; [lia|].
  assert (Z : less (skipn (S (length a)) p) = 0).
  { assert (Q : less (skipn (S (length a)) (p ++ r2)) = 0).
    { rewrite <- E2. assert (length a1 <= length a) by (rewrite E1, app_length; lia). rewrite skipn_app, skipn_all2 by lia. cbn [List.app].
      pose proof (less_skipn (S (length a) - length a1) (nl ++ keys)) as Q. rewrite less_app, K in Q. change (less nl) with 0 in Q. lia. }
    rewrite skipn_app, less_app in Q. lia. }
  rewrite skipn_app, less_app, Z. pose proof (less_skipn (S (length a) - length p) (skipn (S e - S (length a)) b)). lia.
Qed.

Lemma usage_ends : forall a b name g inside e, length a <= e -> (name = [] -> nameless ("<"%char :: b)) -> ends (fun _ => parseNamedReferenceUsage (a ++ "<"%char :: b) (length a) name g inside e)
  (fun r => consumed a b (fst r)).
Proof.
  intros a b name g inside e L Sh. unfold parseNamedReferenceUsage. destruct (str_eqb name []) eqn:Nn; cbn [negb]; [apply ends_ret; left; split; auto; apply Sh, str_eqb_eq; exact Nn|].
  destruct (match get_number _ _ with Some _ => _ | None => _ end) as [refNumber g'].
  eapply ends_bind with (P := neutral).
  - destruct (negb inside); [|apply ends_ret; split; reflexivity]. eapply ends_bind; [apply ends_getToken; neutral_type|]. intros key K.
    eapply ends_bind; [apply ends_setRawToken|]. intros _ _. apply ends_ret. exact K.
  - intros key K. apply ends_ret. cbn [fst]. rewrite firstn_app, Nat.sub_diag, firstn_all, firstn_O, app_nil_r, skipn_tag by lia.
    apply consumed_replaced. rewrite less_app, (proj1 K). apply less_skipn.
Qed.

Lemma definition_ends : forall a b e f g name inside, lighter (a ++ "<"%char :: b) -> length a <= e -> e <= f ->
  ends (fun n => parseReferenceDefinition (tok n) (a ++ "<"%char :: b) (length a) e f g name inside) (fun r => consumed a b (fst r)).
Proof.
  intros a b e f g name inside H L M. unfold parseReferenceDefinition. eapply ends_bind; [apply H|].
  - unfold sub. rewrite skipn_tag by lia. pose proof (proj1 (within_firstn (f - S e) (skipn (S e - S (length a)) b))). pose proof (less_skipn (S e - S (length a)) b).
    rewrite less_app, less_tag. lia.
  - intros text _. eapply ends_bind with (P := neutral).
    + destruct (negb inside); [|apply ends_ret; split; reflexivity]. eapply ends_bind; [apply ends_getToken; neutral_type|]. intros key K.
      eapply ends_bind; [apply ends_setRawToken|]. intros _ _. apply ends_ret. exact K.
    + intros key K. apply ends_ret. cbn [fst]. rewrite firstn_app, Nat.sub_diag, firstn_all, firstn_O, app_nil_r, skipn_tag by lia.
      apply consumed_replaced. rewrite less_app, (proj1 K). apply less_skipn.
Qed.

Lemma attribute_ends : forall content name, match getAttribute content name with OutOfFuel => False | _ => True end.
Proof.
  intros content name. unfold getAttribute. destruct (contains _ content).
  - assert (H : forall l, match quoted_value name l with OutOfFuel => False | _ => True end).
    { induction l as [|x l IH]; cbn [quoted_value]; auto. destruct (has_suffix _ x); auto. destruct l; auto. }
    apply H.
  - destruct (contains _ content); auto. destruct (split2 _ content) as [|x [|y l]]; auto.
Qed.

Lemma group_ends : forall content, match getGroupOrDefault content with OutOfFuel => False | _ => True end.
Proof. intros content. unfold getGroupOrDefault. pose proof (attribute_ends content !"group") as H. destruct (getAttribute content !"group"); auto. Qed.

Lemma lift_ends : forall A (r : res A), match r with OutOfFuel => False | _ => True end -> ends (fun _ => lift r) whatever.
Proof. intros A r H. apply ends_lift. destruct r; auto; exact I. Qed.

Lemma lift_value : forall A (r : res A) (P : A -> Prop), match r with OutOfFuel => False | _ => True end -> (forall a, r = Ok a -> P a) -> ends (fun _ => lift r) P.
Proof. intros A r P H F. apply ends_lift. destruct r; auto. Qed.

Lemma findCloseIC_at : forall content start o c i, o <> [] -> c <> [] ->
  FindCorrespondingCloseTokenIgnoreCase content start o c = Some i -> start <= i /\ has_prefix (to_lower c) (skipn i (to_lower content)) = true.
Proof.
  intros content start o c i Ho Hc H. rewrite findClose_ignore_case in H. apply findClose_position in H as (A & _ & x & y & B & <-).
  - split; auto. rewrite B, skipn_app, skipn_all, Nat.sub_diag. cbn [List.app skipn]. apply has_prefix_spec. eauto.
  - destruct o; [congruence|discriminate].
  - destruct c; [congruence|discriminate].
Qed.

Lemma findClose_go_shift : forall ic o c s k d i n, findClose_go ic o c s k d (n + i) = option_map (Nat.add n) (findClose_go ic o c s k d i).
Proof.
  induction s as [|x s IH]; intros k d i n; [reflexivity|]. cbn [findClose_go]. destruct k as [|k]; [|rewrite <- IH, Nat.add_succ_r; reflexivity].
  repeat match goal with |- context [if ?b then _ else _] => destruct b end; try (rewrite <- IH, Nat.add_succ_r; reflexivity); try reflexivity.
  destruct d; [reflexivity|]. rewrite <- IH, Nat.add_succ_r. reflexivity.
Qed.

Lemma nameless_tag : forall a u e, FindCorrespondingCloseTokenIgnoreCase (a ++ u) (length a + 4) !"<ref" !">" = Some e -> length a + 4 <= e ->
  has_prefix !"/" (skipn (pred e) (a ++ u)) = true -> getNameAttribute (sub (a ++ u) (length a + 4) e) = Ok [] -> nameless u.
Proof.
  intros a u e F L P N. assert (Sk : forall n, length a <= n -> skipn n (a ++ u) = skipn (n - length a) u) by (intros n K; rewrite skipn_app, skipn_all2 by lia; reflexivity).
  exists (e - length a). split; [|split].
  - unfold FindCorrespondingCloseTokenIgnoreCase, findCorrespondingCloseToken in *. rewrite Sk in F by lia. replace (length a + 4 - length a) with 4 in F by lia.
    rewrite findClose_go_shift in F. destruct (findClose_go _ _ _ _ _ _ _) as [n|]; [|discriminate]. injection F as <-. f_equal. lia.
  - rewrite Sk in P by lia. replace (pred (e - length a)) with (pred e - length a) by lia. exact P.
  - unfold sub in *. rewrite Sk in N by lia. replace (length a + 4 - length a) with 4 in N by lia. replace (e - length a - 4) with (e - (length a + 4)) by lia. exact N.
Qed.

Lemma parseReferenceTag_ends : forall a b gs inside, lighter (a ++ "<"%char :: b) ->
  ends (fun n => parseReferenceTag (tok n) (a ++ "<"%char :: b) (length a) gs inside) (fun r => consumed a b (fst (fst r))).
Proof.
  intros a b gs inside H. unfold parseReferenceTag. destruct (FindCorrespondingCloseTokenIgnoreCase _ _ _ _) as [e|] eqn:F; [|apply ends_panic].
  pose proof F as F0. apply findCloseIC_at in F as [F Fp]; try discriminate. destruct (_ || _).
  - eapply ends_bind with (P := whatever).
    + destruct inside; [apply ends_ret; exact I|]. apply lift_ends, group_ends.
    + intros name _. eapply ends_bind; [apply endPlaceholder_ends; lia|]. intros [content g] C. apply ends_ret. exact C.
  - destruct (is_placeholder_start _).
    + eapply ends_bind; [apply lift_ends, group_ends|]. intros name _. apply ends_ret. cbn [fst].
      rewrite firstn_app, Nat.sub_diag, firstn_all, firstn_O, app_nil_r, skipn_tag by lia. apply consumed_replaced. apply less_skipn.
    + eapply ends_bind; [apply lift_value with (P := fun name => getNameAttribute (sub (a ++ "<"%char :: b) (length a + 4) e) = Ok name);
        [apply attribute_ends|auto]|]. intros name Na. cbn beta in Na. eapply ends_bind; [apply lift_ends, group_ends|]. intros groupName _.
      eapply ends_bind with (P := fun r => consumed a b (fst r)).
      * destruct (has_prefix !"/" _) eqn:Ps; [apply usage_ends; [lia|]|].
        { intros ->. exact (nameless_tag a _ e F0 F Ps Na). }
        destruct (FindCorrespondingCloseTokenIgnoreCase _ e _ _) as [f|] eqn:F2; [|apply ends_panic].
        apply findCloseIC_position in F2 as [F2 _]; try discriminate. apply definition_ends; auto; lia.
      * intros [content g] C. apply ends_ret. exact C.
Qed.

Lemma next_tag_at : forall s d, next_tag s = Some d -> exists a b, s = a ++ "<"%char :: b /\ length a = d.
Proof.
  induction s as [|c s IH]; intros d E; cbn [next_tag] in E; [discriminate|]. destruct (at_reference_tag (c :: s)) eqn:T.
  - injection E as <-. exists [], s. split; auto. unfold at_reference_tag in T. apply andb_true_iff in T as [_ T]. cbn [firstn] in T.
    apply orb_true_iff in T as [T|T]; apply ignore_case_tag in T; subst; auto.
  - destruct (next_tag s) as [d'|] eqn:N; [|discriminate]. cbn in E. injection E as <-. destruct (IH d' eq_refl) as (a & b & -> & <-).
    exists (c :: a), b. auto.
Qed.

Lemma next_tag_none : forall i s n, next_tag (skipn i s) = None -> i <= n -> at_reference_tag (skipn n s) = false.
Proof.
  intros i s n H L. replace n with (i + (n - i)) by lia. rewrite <- skipn_skipn_add. revert H. generalize (n - i). generalize (skipn i s). clear.
  induction l as [|c l IH]; intros n H; [rewrite skipn_nil; reflexivity|]. cbn [next_tag] in H. destruct (at_reference_tag (c :: l)) eqn:T; [discriminate|].
  destruct n as [|n]; [exact T|]. cbn [skipn]. apply IH. destruct (next_tag l); [discriminate|reflexivity].
Qed.

Lemma next_tag_before : forall i s d n, next_tag (skipn i s) = Some d -> i <= n -> n < i + d -> at_reference_tag (skipn n s) = false.
Proof.
  intros i s d n H L M. replace n with (i + (n - i)) by lia. rewrite <- skipn_skipn_add. assert (K : n - i < d) by lia. clear M; revert d H K. generalize (n - i). generalize (skipn i s). clear.
  induction l as [|c l IH]; intros n d H K; [rewrite skipn_nil; reflexivity|]. cbn [next_tag] in H. destruct (at_reference_tag (c :: l)) eqn:T; [injection H as <-; lia|].
  destruct (next_tag l) as [d'|]; [|discriminate]. injection H as <-. destruct n as [|n]; [exact T|]. cbn [skipn]. apply (IH n d'); auto. lia.
Qed.

Lemma parseReferences_go_ends : forall fuel content i gs inside, less (skipn i content) <= fuel -> lighter content ->
  ends (fun n => parseReferences_go (tok n) fuel content i gs inside)
    (fun r => (r = content /\ forall n, i <= n -> at_reference_tag (skipn n content) = true -> nameless (skipn n content)) \/ less r < less content).
Proof.
  induction fuel as [|fuel IH]; intros content i gs inside L H; cbn [parseReferences_go]; (destruct (next_tag (skipn i content)) as [d|] eqn:N;
    [|apply ends_ret; left; split; auto; intros n Ln T; rewrite (next_tag_none i content n N Ln) in T; discriminate]).
  - exfalso. apply next_tag_at in N as (a & b & E & _). rewrite E, less_app, less_tag in L. lia.
  - pose proof (next_tag_before i content d) as Nb. specialize (Nb) with (1 := N). apply next_tag_at in N as (a & b & E & <-).
    assert (C : content = (firstn i content ++ a) ++ "<"%char :: b) by (rewrite <- app_assoc, <- E, firstn_skipn; auto).
    assert (B : less b <= fuel) by (rewrite E, less_app, less_tag in L; lia).
    assert (P : i + length a = length (firstn i content ++ a)).
    { rewrite app_length, firstn_length_le; auto. destruct (le_dec i (length content)) as [K|K]; auto. rewrite skipn_all2 in E by lia. destruct a; discriminate. }
    rewrite P in *. set (front := firstn i content ++ a) in *. clearbody front. subst content. clear E P L.
    eapply ends_bind; [apply parseReferenceTag_ends; auto|]. intros [[content' gs'] inside'] K. cbn [fst] in K.
    assert (K' : less (skipn (S (length front)) content') <= less b /\
      ((content' = front ++ "<"%char :: b /\ nameless ("<"%char :: b)) \/ less content' < less (front ++ "<"%char :: b))).
    { destruct K as [(-> & Sh)|(K1 & K2)].
      - split; auto. rewrite skipn_tag by lia. apply less_skipn.
      - split; auto. right. rewrite less_app, less_tag. lia. }
    destruct K' as (K1 & K2). eapply ends_weaken; [|apply IH].
    + intros r R. cbn beta in R. destruct K2 as [(-> & Sh)|K2].
      * destruct R as [(-> & R)|R]; [|right; exact R]. left. split; auto. intros n Ln T. destruct (lt_eq_lt_dec n (length front)) as [[Lt|Eq]|Gt].
        { rewrite Nb in T by auto. discriminate. }
        { subst n. rewrite skipn_app, skipn_all, Nat.sub_diag. exact Sh. }
        { apply R; auto. }
      * destruct R as [(-> & _)|R]; right; lia.
    + lia.
    + eapply lighter_le; [|exact H]. destruct K2 as [(-> & _)|K2]; lia.
Qed.

Lemma filter_less : forall s, length (filter (Ascii.eqb "<") s) = less s.
Proof. intros s. unfold less, count. rewrite (filter_ext (Ascii.eqb "<") is_less); [reflexivity|]. intros c. unfold is_less. apply Ascii.eqb_sym. Qed.

Definition only_short (s : str) : Prop := forall a b, s = a ++ b -> at_reference_tag b = true -> nameless b.

Lemma parseReferences_ends : forall s, lighter s -> ends (fun n => parseReferences (tok n) s) (fun r => settled only_short r s).
Proof.
  intros s H. unfold parseReferences. eapply ends_weaken; [|apply parseReferences_go_ends; [rewrite filter_less; auto|exact H]].
  intros r [(-> & N)|L]; [left; split; auto|right; left; auto]. intros a b E T.
  assert (Q : skipn (length a) s = b) by (rewrite E, skipn_app, skipn_all, Nat.sub_diag; reflexivity). rewrite <- Q in *. apply N; auto. lia.
Qed.

(** ** Links *)

Lemma link_token_ends : forall ty target text, tokenizes text -> ends (fun n => link_token (tok n) ty target text)
  (fun r => match r with Some (_, key) => neutral key
    | None => ty = LINK_TYPE_EXTERNAL /\ HasAnyPrefix target [!"http://"; !"https://"] = false /\ contains !"://" target = false end).
Proof.
  intros ty target text H. unfold link_token. destruct ty.
  - eapply ends_bind; [apply H|]. intros x _. apply ends_ret. neutral_type.
  - destruct (HasAnyPrefix _ _) eqn:HA; [eapply ends_bind; [apply H|]; intros x _; apply ends_ret; neutral_type|].
    destruct (contains _ _); [eapply ends_bind; [apply H|]; intros x _; apply ends_ret; neutral_type|]. apply ends_ret. auto.
Qed.

Lemma tokenizes_item : forall op item x, special op <> 0 -> smaller (op ++ item) -> within x item -> tokenizes x.
Proof.
  intros op item x O H W. apply H; [apply within_skip; auto|]. destruct W as [_ W]. unfold special in *. rewrite count_app. lia.
Qed.

(** The result for the part behind opening brackets: nothing changes, the brackets are replaced, or missing brackets are added. *)
Definition linked (P : str -> Prop) (op cl : str) (ty : LinkType) (item r : str) : Prop :=
  (r = op ++ item /\ P item) \/ within r item \/ (ty = LINK_TYPE_EXTERNAL /\ index cl item = None /\ r = op ++ item ++ cl).

(** Why nothing happens *)
Definition no_link (cl del : str) (ty : LinkType) (dr rs : bool) (item : str) : Prop :=
  is_file cfg item = true \/ (length (split del (hd [] (split cl item))) = 1 /\ dr = true) \/
  (ty = LINK_TYPE_EXTERNAL /\ let target := link_target del (hd [] (split cl item)) rs in
   HasAnyPrefix target [!"http://"; !"https://"] = false /\ contains !"://" target = false).

Lemma parseLinkItem_ends : forall op cl del ty dr rs item, special op <> 0 -> neutral cl -> op <> [] -> cl <> [] -> del <> [] -> smaller (op ++ item) ->
  ends (fun n => parseLinkItem cfg (tok n) op cl del ty dr rs item) (linked (no_link cl del ty dr rs) op cl ty item).
Proof.
  intros op cl del ty dr rs item O NC No Nc Nd H. unfold parseLinkItem. destruct (is_file cfg item) eqn:IF; [apply ends_ret; left; split; auto; left; auto|].
  destruct (_ && dr) eqn:DR; [apply ends_ret; left; split; auto; right; left; apply andb_true_iff in DR as [D1 D2]; apply Nat.eqb_eq in D1; auto|]. set (poss := hd [] (split cl item)).
  assert (P : within poss item) by (apply within_hd; auto).
  assert (T : within (link_target del poss rs) item).
  { unfold link_target. eapply within_trans; [apply within_trim|]. destruct rs; [eapply within_trans; [apply within_hd2|]|];
      (eapply within_trans; [apply within_hd; auto|exact P]). }
  eapply ends_bind with (P := fun x => within x item).
  - destruct (_ =? 1).
    + destruct (link_target del poss rs) as [|c t] eqn:E; [apply ends_panic|]. rewrite <- E in *. apply ends_ret.
      destruct (Ascii.eqb c ":"); auto. eapply within_trans; [apply within_last; discriminate|exact T].
    + apply ends_ret. eapply within_trans; [apply within_rest; auto|exact P].
  - intros text X. eapply ends_bind; [apply link_token_ends; eapply tokenizes_item; eauto|]. intros token K.
    eapply ends_bind with (P := fun x => neutral x \/ (ty = LINK_TYPE_EXTERNAL /\ x = op ++ poss ++ cl /\ no_link cl del ty dr rs item)).
    + destruct token as [[token key]|]; [|apply ends_ret; right; destruct K as (K1 & K2 & K3); split; auto; split; auto; right; right; split; auto]. eapply ends_bind; [apply ends_getToken; exact K|]. intros k Kk.
      eapply ends_bind; [apply ends_setRawToken|]. intros _ _. apply ends_ret. auto.
    + intros link [L|(L & -> & NL)]; apply ends_ret.
      * right. left. apply within_neutral; auto. apply within_rest. auto.
      * destruct (split_parts cl item Nc) as [(E & I)|(a & b & E & F)].
        { right. right. split; auto. split; auto. unfold poss. rewrite E. cbn [hd tl join]. rewrite app_nil_r. auto. }
        { left. split; auto. unfold poss. rewrite F. cbn [hd tl]. rewrite join_split by auto. rewrite E, <- !app_assoc. auto. }
Qed.

Definition marked (op : str) (items : list str) : str := concat (map (app op) items).

Lemma split_first_items : forall op s, op <> [] -> exists first items, split op s = first :: items /\ s = first ++ marked op items.
Proof.
  intros op s N. pose proof (join_split op s N) as J. pose proof (split_nonempty op s) as E. destruct (split op s) as [|first items]; [congruence|].
  exists first, items. split; auto. rewrite <- J. clear. revert first. induction items as [|x items IH]; intros first; [cbn; rewrite app_nil_r; auto|].
  rewrite join_cons by discriminate. unfold marked in *. cbn [map concat]. rewrite (IH x). rewrite <- !app_assoc. auto.
Qed.

Lemma smaller_item : forall op items item a, In item items -> smaller (a ++ marked op items) -> smaller (op ++ item).
Proof.
  intros op items item a I H. eapply smaller_within; [|exact H]. apply within_skip. apply within_concat. apply in_map. auto.
Qed.

(** Without added brackets, or with some *)
Lemma linked_fewer : forall P op cl ty items rs, special op <> 0 -> neutral cl -> Forall2 (linked P op cl ty) items rs ->
  (within (concat rs) (marked op items) /\ special (concat rs) < special (marked op items)) \/
  (less (concat rs) = less (marked op items) /\ special (concat rs) = special (marked op items) /\
   Forall2 (fun item r => (r = op ++ item /\ P item) \/ (ty = LINK_TYPE_EXTERNAL /\ index cl item = None /\ r = op ++ item ++ cl)) items rs).
Proof.
  intros P op cl ty items rs O C F. induction F as [|item r items rs E F IH]; [right; repeat split; constructor|].
  unfold marked in *. cbn [concat map].
  assert (S1 : forall a b, special (a ++ b) = special a + special b) by (intros; apply count_app).
  assert (V : within (concat rs) (concat (map (app op) items))). { destruct IH as [(W & _)|(A & B & _)]; auto. split; lia. }
  destruct E as [(-> & Pi)|[W|(T & I & ->)]].
  - destruct IH as [(W & L)|(A & B & G)]; [left; split; [apply within_app; auto; apply within_refl|rewrite !S1; lia]|].
    right. rewrite !less_app, !S1, A, B. split; [auto|split; [auto|constructor; auto]].
  - left. split; [apply within_app; auto; apply within_skip; auto|]. destruct W as [_ W], V as [_ V]. rewrite !S1. lia.
  - destruct C as [C1 C2]. destruct IH as [(W & L)|(A & B & G)].
    + left. split; [|rewrite !S1; lia]. destruct W as [W1 W2]. split; [rewrite !less_app|rewrite !S1]; lia.
    + right. rewrite !less_app, !S1, A, B. split; [lia|]. split; [lia|]. constructor; auto.
Qed.

Lemma parseInternalLinks_ends : forall s, smaller s -> ends (fun n => parseInternalLinks cfg (tok n) s)
  (fun r => settled (fun s => Forall (no_link !"]]" !"|" LINK_TYPE_INTERNAL false true) (tl (split !"[[" s))) r s).
Proof.
  intros s H. unfold parseInternalLinks, parseLink. destruct (split_first_items !"[[" s) as (first & items & E0 & E); [discriminate|]. rewrite E0. subst s.
  eapply ends_bind; [apply ends_mapM with (f := fun n => parseLinkItem cfg (tok n) !"[[" !"]]" !"|" LINK_TYPE_INTERNAL false true)
    (R := linked (no_link !"]]" !"|" LINK_TYPE_INTERNAL false true) !"[[" !"]]" LINK_TYPE_INTERNAL)|].
  - intros item I. apply parseLinkItem_ends; try discriminate; [neutral_type|]. eapply smaller_item; eauto.
  - intros rs F. apply ends_ret. apply linked_fewer in F; [|discriminate|neutral_type]. destruct F as [(W & L)|(A & B & G)].
    + right. apply below_lower, within_below; [apply within_app; auto; apply within_refl|]. unfold special in *. rewrite !count_app. lia.
    + left. rewrite E0. cbn [tl]. clear - G. induction G as [|x y l rs [(-> & P)|(K & _)] G (IH & F)]; [split; auto| |discriminate].
      split; [|constructor; auto]. unfold marked in *. cbn [concat map]. apply app_inv_head in IH. rewrite IH. reflexivity.
Qed.

(** Brackets that are not closed *)
Lemma brackets_none : forall x, ~ In "["%char x -> unclosed_brackets (filter is_bracket x) = 0.
Proof.
  induction x as [|c x IH]; intros N; auto. cbn [filter]. destruct (is_bracket c) eqn:B; [|apply IH; intros I; apply N; right; auto].
  cbn [unclosed_brackets]. destruct (Ascii.eqb_spec c "["%char) as [->|K]; [exfalso; apply N; left; auto|]. apply IH. intros I. apply N. right. auto.
Qed.

Lemma brackets_app : forall x s, ~ In "["%char x -> unclosed (x ++ s) = unclosed s.
Proof.
  intros x s. unfold unclosed. induction x as [|c x IH]; intros N; auto. cbn [List.app filter].
  destruct (is_bracket c) eqn:B; [|apply IH; intros I; apply N; right; auto].
  cbn [unclosed_brackets]. destruct (Ascii.eqb_spec c "["%char) as [->|K]; [exfalso; apply N; left; auto|]. apply IH. intros I. apply N. right. auto.
Qed.

(** An item behind an opening bracket *)
Lemma unclosed_item : forall x s, ~ In "["%char x -> (s = [] \/ exists s', s = "["%char :: s') ->
  unclosed (("["%char :: x) ++ s) = (if contains !"]" x then 0 else 1) + unclosed s.
Proof.
  intros x s N B. unfold unclosed. change (filter is_bracket (("["%char :: x) ++ s)) with ("["%char :: filter is_bracket (x ++ s)).
  change (unclosed_brackets ("["%char :: filter is_bracket (x ++ s))) with
    (match filter is_bracket (x ++ s) with d :: _ => if Ascii.eqb d "[" then 1 else 0 | [] => 1 end + unclosed_brackets (filter is_bracket (x ++ s))).
  fold (unclosed (x ++ s)). rewrite brackets_app by auto. fold (unclosed s). f_equal. rewrite filter_app.
  destruct (contains !"]" x) eqn:C.
  - apply (contains_single "]"%char) in C. clear B. induction x as [|c x IH]; [destruct C|]. cbn [filter].
    destruct (is_bracket c) eqn:B.
    + cbn [List.app]. destruct (Ascii.eqb_spec c "["%char) as [->|K]; [exfalso; apply N; left; auto|auto].
    + destruct C as [->|C]; [discriminate|]. apply IH; auto. intros I. apply N. right. auto.
  - apply (contains_single_false "]"%char) in C. assert (Z : filter is_bracket x = []).
    { clear B. induction x as [|c x IH]; auto. cbn [filter]. unfold is_bracket at 1. destruct (Ascii.eqb_spec c "["%char) as [->|K]; [exfalso; apply N; left; auto|].
      destruct (Ascii.eqb_spec c "]"%char) as [->|K']; [exfalso; apply C; left; auto|]. cbn [orb]. apply IH; intros I; [apply N|apply C]; right; auto. }
    rewrite Z. cbn [List.app]. destruct B as [->|(s' & ->)]; reflexivity.
Qed.

Lemma marked_start : forall items, marked !"[" items = [] \/ exists s', marked !"[" items = "["%char :: s'.
Proof. intros [|x items]; [left; auto|right]. unfold marked. cbn [map concat list_ascii_of_string List.app]. eauto. Qed.

Lemma added_unclosed : forall P items rs, Forall (fun x => ~ In "["%char x) items ->
  Forall2 (fun item r => (r = !"[" ++ item /\ P item) \/ (LINK_TYPE_EXTERNAL = LINK_TYPE_EXTERNAL /\ index !"]" item = None /\ r = !"[" ++ item ++ !"]")) items rs ->
  (exists items', concat rs = marked !"[" items') /\
  ((concat rs = marked !"[" items /\ Forall P items) \/ unclosed (concat rs) < unclosed (marked !"[" items)) /\ unclosed (concat rs) <= unclosed (marked !"[" items).
Proof.
  intros P items rs N F. induction F as [|item r items rs E F IH]; [split; [exists []; auto|split; [left; auto|auto]]|].
  pose proof (Forall_inv N) as N1. apply Forall_inv_tail in N. destruct (IH N) as ((items' & S1) & D & U). clear IH.
  unfold marked in *. cbn [concat map]. rewrite S1 in *.
  assert (Hs : concat (map (app !"[") items) = [] \/ exists s', concat (map (app !"[") items) = "["%char :: s') by apply marked_start.
  assert (Hs' : concat (map (app !"[") items') = [] \/ exists s', concat (map (app !"[") items') = "["%char :: s') by apply marked_start.
  destruct E as [(-> & Pi)|(_ & I & ->)].
  - split; [exists (item :: items'); auto|]. change (!"[" ++ item) with ("["%char :: item). rewrite !unclosed_item by auto. split; [|lia].
    destruct D as [(-> & D)|D]; [left; auto|right; lia].
  - split; [exists ((item ++ !"]") :: items'); auto|]. change (!"[" ++ item ++ !"]") with ("["%char :: (item ++ !"]")). change (!"[" ++ item) with ("["%char :: item).
    assert (M : ~ In "["%char (item ++ !"]")) by (intros K; apply in_app_iff in K as [K|[K|[]]]; [auto|discriminate]).
    rewrite !unclosed_item by auto. assert (C1 : contains !"]" (item ++ !"]") = true) by (apply contains_single; apply in_app_iff; right; left; auto).
    assert (C2 : contains !"]" item = false) by (apply contains_false_index; auto). rewrite C1, C2. split; [right; lia|lia].
Qed.

Lemma parseExternalLinks_ends : forall s, smaller s -> ends (fun n => parseExternalLinks cfg (tok n) s)
  (fun r => settled (fun s => Forall (no_link !"]" !" " LINK_TYPE_EXTERNAL true false) (tl (split !"[" s))) r s).
Proof.
  intros s H. unfold parseExternalLinks, parseLink. pose proof (split_single_pieces "["%char s) as N.
  destruct (split_first_items !"[" s) as (first & items & E1 & E); [discriminate|]. change (split !"[" s) with (split ["["%char] s) in E1. rewrite E1 in N.
  change (split !"[" s) with (split ["["%char] s). rewrite E1. subst s.
  eapply ends_bind; [apply ends_mapM with (f := fun n => parseLinkItem cfg (tok n) !"[" !"]" !" " LINK_TYPE_EXTERNAL true false)
    (R := linked (no_link !"]" !" " LINK_TYPE_EXTERNAL true false) !"[" !"]" LINK_TYPE_EXTERNAL)|].
  - intros item I. apply parseLinkItem_ends; try discriminate; [neutral_type|]. eapply smaller_item; eauto.
  - intros rs F. apply ends_ret. apply linked_fewer in F; [|discriminate|neutral_type]. destruct F as [(W & L)|(A & B & G)].
    + right. apply below_lower, within_below; [apply within_app; auto; apply within_refl|]. unfold special in *. rewrite !count_app. lia.
    + destruct (added_unclosed _ items rs (Forall_inv_tail N) G) as (_ & [(-> & Fa)|D] & _).
      { left. split; auto. change (split !"[") with (split ["["%char]). rewrite E1. exact Fa. }
      right. right. unfold special in *. rewrite !less_app, !count_app, A, B.
      split; auto. right. split; auto. left. rewrite !brackets_app by (exact (Forall_inv N)). exact D.
Qed.

(** ** Galleries, image maps and images *)

Lemma within_replace : forall old new s, old <> [] -> neutral new -> within (replace_all old new s) s.
Proof. intros old new s N K. rewrite replace_all_split by auto. eapply within_trans; [apply within_join; auto|apply within_split; auto]. Qed.

Lemma upper_first_within : forall s, match upper_first s with Ok r => within r s | OutOfFuel => False | _ => True end.
Proof.
  intros [|c s]; cbn [upper_first]; auto. assert (A : is_less (upper_char c) = is_less c) by (destruct c as [[] [] [] [] [] [] [] []]; vm_compute; reflexivity).
  assert (B : is_special (upper_char c) = is_special c) by (destruct c as [[] [] [] [] [] [] [] []]; vm_compute; reflexivity).
  unfold within, less, special. rewrite !count_cons, A, B. lia.
Qed.

Lemma special_app : forall a b, special (a ++ b) = special a + special b.
Proof. intros. apply count_app. Qed.

Lemma escapeImages_ends : forall s, ends (fun _ => escapeImages cfg s) (fun r => less r <= less s /\ special r <= S (special s)).
Proof.
  intros s. unfold escapeImages.
  assert (G : forall mediaType filename first rest, split !"|" s = first :: rest -> less mediaType + less filename <= less first ->
    special mediaType + special filename <= special first ->
    ends (fun _ => if ignored_media cfg filename then ret []
      else do! filename := (fun t => let! f := upper_first (replace_all !"%20" !"_" (replace_all !" " !"_" filename)) in Ok (f, t)) in
           do! _ := addImage (mediaType ++ !":" ++ filename) in
           ret (join !"|" ((mediaType ++ !":" ++ filename) :: tl (split !"|" s)))) (fun r => less r <= less s /\ special r <= S (special s))).
  { intros mediaType filename first rest E A B. destruct (ignored_media cfg filename); [apply ends_ret; cbn; lia|].
    eapply ends_bind with (P := fun f => within f filename).
    - eapply ends_weaken; [|apply (ends_lift _ _ (fun f => within f (replace_all !"%20" !"_" (replace_all !" " !"_" filename))))]; [|apply upper_first_within].
      intros f F. eapply within_trans; [exact F|]. eapply within_trans; [apply within_replace; [discriminate|neutral_type]|apply within_replace; [discriminate|neutral_type]].
    - intros f [F1 F2]. eapply ends_bind with (P := whatever); [apply ends_always; intros; exact I|]. intros _ _. apply ends_ret.
      pose proof (join_split !"|" s ltac:(discriminate)) as J. rewrite E in J. rewrite E. cbn [tl]. rewrite <- J.
      assert (X : forall l, less (join !"|" l) = less (concat l)) by (intros; apply count_join; reflexivity).
      assert (Y : forall l, special (join !"|" l) = special (concat l)) by (intros; apply count_join; reflexivity).
      rewrite !X, !Y. cbn [concat]. rewrite !less_app, !special_app. change (less !":") with 0. change (special !":") with 1. lia. }
  destruct (split !"|" s) as [|first rest] eqn:E; [destruct (split_nonempty _ _ E)|]. cbn [hd].
  destruct (split2_parts !":" first) as [->|(a & b & F & ->)].
  - eapply (G !"File" (trim_space first)); eauto; destruct (within_trim first); cbn [less special] in *.
    + change (less !"File") with 0. lia.
    + change (special !"File") with 0. lia.
  - eapply (G a (trim_space b)); eauto; destruct (within_trim b); rewrite F.
    + rewrite !less_app. lia.
    + rewrite !special_app. lia.
Qed.

Lemma remove_start_less : forall tag line l, tag <> [] -> hd zero tag = "<"%char -> remove_start_tag tag line = Some l -> less l < less line.
Proof.
  intros tag line l N T E. unfold remove_start_tag in E. destruct (HasPrefixIgnoreCase line tag) eqn:P; [|discriminate].
  destruct (tag_end _) as [i|]; [|discriminate]. injection E as <-. apply prefix_ignore_case_less in P as (a & b & -> & La & A & _).
  rewrite skipn_app, skipn_all2 by lia. cbn [List.app]. rewrite less_app, A. pose proof (less_skipn (length tag + i + 1 - length a) b).
  destruct tag as [|c tag]; [congruence|]. cbn in T. subst c. rewrite less_tag. lia.
Qed.

Lemma remove_less : forall old s k, hd zero old = "<"%char -> less (remove_ignore_case old s k) <= less s /\
  (k = 0 -> forall a b, s = a ++ b -> HasPrefixIgnoreCase b old = true -> less (remove_ignore_case old s k) < less s).
Proof.
  intros old s k T. assert (D : exists old', old = "<"%char :: old') by (destruct old; [discriminate|cbn in T; subst; eauto]).
  revert k. induction s as [|c s IH]; intros k.
  { split; auto. intros _ a b E P. destruct a; [|discriminate]. destruct b; [|discriminate]. destruct D as (old' & ->). discriminate. }
  cbn [remove_ignore_case]. destruct k as [|k].
  - destruct (HasPrefixIgnoreCase (c :: s) old) eqn:P.
    + destruct D as (old' & ->). unfold HasPrefixIgnoreCase in P. cbn [to_lower map] in P. rewrite has_prefix_cons in P.
      apply andb_true_iff in P as [P _]. apply Ascii.eqb_eq in P.
      assert (C : c = "<"%char) by (apply lower_symbol; [left; left; auto|rewrite <- P; reflexivity]). subst c. rewrite less_tag.
      destruct (IH (pred (length ("<"%char :: old')))) as (L & _). split; [lia|intros; lia].
    + destruct (IH 0) as (L & M). unfold less in *. rewrite !count_cons. split; [lia|]. intros _ a b E Q.
      destruct a as [|x a]; [cbn [List.app] in E; rewrite E in P; congruence|]. injection E as -> E. specialize (M eq_refl a b E Q). lia.
  - destruct (IH k) as (L & _). unfold less in *. rewrite count_cons. split; [lia|discriminate].
Qed.

Lemma galleryLine_ends : forall line, ends (fun _ => galleryLine cfg line) (fun r => less r <= less line).
Proof.
  intros line. unfold galleryLine. match goal with |- ends (fun _ => bindM (escapeImages cfg ?x) _) _ => assert (L : less x <= less line) end.
  { destruct (hasNonInlineParameter line); auto. pose proof (within_split !"|" line ltac:(discriminate)) as [W _]. destruct (split !"|" line) as [|name parameters]; auto.
    assert (X : forall l, less (join !"|" l) = less (concat l)) by (intros; apply count_join; reflexivity). rewrite X.
    cbn [concat] in *. rewrite !less_app in *. change (less !"mini") with 0. lia. }
  eapply ends_bind; [apply escapeImages_ends|]. intros r (R & _). apply ends_ret. destruct r as [|c r]; [cbn; lia|]. rewrite !less_app.
  change (less !"[[") with 0. change (less !"]]") with 0. lia.
Qed.

(** For lines: nothing has changed, or there are fewer tags *)
Definition lighter_lines (P : str -> Prop) (skip : bool) (r lines : list str) : Prop :=
  less (concat r) <= less (concat lines) /\ (skip = false -> (r = lines /\ Forall P lines) \/ less (concat r) < less (concat lines)).

Lemma lighter_settled : forall P r s, lighter_lines P false r (split nl s) -> settled (fun s => Forall P (split nl s)) (join nl r) s.
Proof.
  intros P r s (_ & H). destruct (H eq_refl) as [(-> & F)|L]; [left; split; auto; apply join_split; discriminate|]. right. left.
  assert (X : forall l, less (join nl l) = less (concat l)) by (intros; apply count_join; reflexivity).
  pose proof (join_split nl s ltac:(discriminate)) as J. rewrite X. rewrite <- J, X. exact L.
Qed.

Definition no_gallery (line : str) : Prop :=
  HasPrefixIgnoreCase (trim_space line) !"</gallery>" = false /\ remove_start_tag !"<gallery" (trim_space line) = None.

Lemma parseGalleries_go_ends : forall lines inside, ends (fun _ => parseGalleries_go cfg lines inside) (fun r => lighter_lines no_gallery inside r lines).
Proof.
  induction lines as [|line lines IH]; intros inside; cbn [parseGalleries_go]; [apply ends_ret; split; auto|].
  destruct (HasPrefixIgnoreCase (trim_space line) !"</gallery>") eqn:P.
  - destruct (EqualsIgnoreCase _ _) eqn:E.
    + eapply ends_weaken; [|apply IH]. intros r (R & _). apply ignore_case_less in E. change (less !"</gallery>") with 1 in E.
      destruct (within_trim line) as [W _]. split; cbn [concat]; rewrite less_app; [lia|intros; right; lia].
    + eapply ends_bind; [apply IH|]. intros r (R & _). apply ends_ret. destruct (trim_space_spec line) as (a & b & E' & _).
      destruct (remove_less !"</gallery>" line 0 eq_refl) as (_ & M). specialize (M eq_refl a (trim_space line ++ b) E').
      assert (Q : HasPrefixIgnoreCase (trim_space line ++ b) !"</gallery>" = true).
      { unfold HasPrefixIgnoreCase in *. unfold to_lower in *. rewrite map_app. apply has_prefix_app_l. exact P. }
      specialize (M Q). split; cbn [concat]; rewrite !less_app; [lia|intros; right; lia].
  - destruct (within_trim line) as [W _]. destruct (remove_start_tag !"<gallery" (trim_space line)) as [l|] eqn:S.
    + apply remove_start_less in S; [|discriminate|reflexivity]. destruct l as [|c l].
      * eapply ends_weaken; [|apply IH]. intros r (R & _). split; cbn [concat]; rewrite less_app; [lia|intros; right; lia].
      * eapply ends_bind; [apply galleryLine_ends|]. intros x X. cbn beta in X. eapply ends_bind; [apply IH|]. intros r (R & _). apply ends_ret.
        split; cbn [concat]; rewrite !less_app; [lia|intros; right; lia].
    + destruct inside.
      * destruct (trim_space line) as [|c l] eqn:T.
        { eapply ends_weaken; [|apply IH]. intros r (R & _). split; cbn [concat]; rewrite ?less_app; [lia|discriminate]. }
        rewrite <- T in *. eapply ends_bind; [apply galleryLine_ends|]. intros x X. cbn beta in X. eapply ends_bind; [apply IH|]. intros r (R & _). apply ends_ret.
        split; cbn [concat]; rewrite !less_app; [lia|discriminate].
      * eapply ends_bind; [apply IH|]. intros r (R & E). apply ends_ret. split; cbn [concat]; rewrite !less_app; [lia|]. intros _.
        destruct (E eq_refl) as [(-> & F)|L]; [left; split; auto; constructor; auto; split; auto|right; lia].
Qed.

Lemma parseGalleries_ends : forall s, ends (fun _ => parseGalleries cfg s) (fun r => settled (fun s => Forall no_gallery (split nl s)) r s).
Proof. intros s. unfold parseGalleries. eapply ends_bind; [apply parseGalleries_go_ends|]. intros r R. apply ends_ret. apply lighter_settled. exact R. Qed.

Definition no_imagemap (line : str) : Prop := EqualsIgnoreCase line !"</imagemap>" = false /\ remove_start_tag !"<imagemap" line = None.

Lemma parseImageMaps_go_ends : forall n lines inside, length lines <= n -> ends (fun _ => parseImageMaps_go cfg lines inside) (fun r => lighter_lines no_imagemap inside r lines).
Proof.
  induction n as [|n IH]; intros lines inside Ln; destruct lines as [|line lines]; cbn [parseImageMaps_go]; cbn [length] in Ln; try (apply ends_ret; split; auto); [lia|].
  destruct (inside || _) eqn:T.
  - eapply ends_weaken; [|apply IH; lia]. intros r (R & E). split; cbn [concat]; rewrite less_app; [lia|]. intros ->. cbn [orb] in T.
    apply ignore_case_less in T. change (less !"</imagemap>") with 1 in T. right. lia.
  - apply orb_false_iff in T as [-> T]. destruct (remove_start_tag !"<imagemap" line) as [l|] eqn:S.
    + apply remove_start_less in S; [|discriminate|reflexivity]. destruct (within_trim l) as [W _].
      assert (B : forall x, less !"[[" = 0 /\ less !"]]" = 0 /\ less (!"[[" ++ x ++ !"]]") = less x).
      { intros x. rewrite !less_app. change (less !"[[") with 0. change (less !"]]") with 0. lia. }
      destruct (trim_space l) as [|c l'] eqn:E.
      * destruct lines as [|next lines]; [apply ends_panic|]. eapply ends_bind; [apply escapeImages_ends|]. intros x (X & _).
        eapply ends_bind; [apply IH; cbn [length] in Ln; lia|]. intros r (R & _). apply ends_ret. destruct (B x) as (_ & _ & Bx).
        split; cbn [concat]; rewrite !less_app in *; [lia|intros _; right; lia].
      * rewrite <- E in *. clear E. eapply ends_bind; [apply escapeImages_ends|]. intros x (X & _).
        eapply ends_bind; [apply IH; lia|]. intros r (R & _). apply ends_ret. destruct (B x) as (_ & _ & Bx).
        split; cbn [concat]; rewrite !less_app in *; [lia|intros _; right; lia].
    + eapply ends_bind; [apply IH; lia|]. intros r (R & E). apply ends_ret. split; cbn [concat]; rewrite !less_app; [lia|]. intros _.
      destruct (E eq_refl) as [(-> & F)|L]; [left; split; auto; constructor; auto; split; auto|right; lia].
Qed.

Lemma parseImageMaps_ends : forall s, ends (fun _ => parseImageMaps cfg s) (fun r => settled (fun s => Forall no_imagemap (split nl s)) r s).
Proof. intros s. unfold parseImageMaps. eapply ends_bind; [apply (parseImageMaps_go_ends (length (split nl s))); auto|]. intros r R. apply ends_ret. apply lighter_settled. exact R. Qed.

(** All smaller texts can be tokenized *)
Definition descends (s : str) : Prop := forall x, below x s -> tokenizes x.

Lemma descends_within : forall x y, within x y -> descends y -> descends x.
Proof. intros x y W H z B. apply H. unfold within, below in *. lia. Qed.

Lemma descends_smaller : forall s, descends s -> smaller s.
Proof. intros s H x W L. apply H. apply within_below; auto. Qed.

Lemma descends_lighter : forall s, descends s -> lighter s.
Proof. intros s H x L. apply H. left. auto. Qed.

Lemma parseOptions_ends : forall options o, (forall x, In x options -> tokenizes x) -> ends (fun n => parseOptions (tok n) options o) whatever.
Proof.
  induction options as [|option options IH]; intros o H; cbn [parseOptions]; [apply ends_ret; exact I|].
  assert (H' : forall x, In x options -> tokenizes x) by (intros; apply H; right; auto).
  destruct (HasAnyPrefix _ _); [apply IH; auto|]. destruct (has_suffix _ _); [destruct (option_size option); apply IH; auto|].
  destruct (_ && _); [|apply IH; auto]. eapply ends_bind; [apply H; left; auto|]. intros c _. apply IH; auto.
Qed.

Lemma image_token_ends : forall s, (forall x, within x s -> tokenizes x) -> ends (fun n => image_token cfg (tok n) s) neutral.
Proof.
  intros s H. unfold image_token. eapply ends_bind with (P := whatever).
  - apply ends_always. intros t. destruct (split2 _ _) as [|x [|y l]]; exact I.
  - intros filename _. eapply ends_bind; [apply parseOptions_ends|].
    + intros x I. apply filter_In in I as [I _]. apply H. eapply within_piece; [|exact I]. discriminate.
    + intros o _. destruct (isImage o).
      * eapply ends_bind; [apply ends_getToken; neutral_type|]. intros key K. eapply ends_bind; [apply ends_setRawToken|]. intros _ _. apply ends_ret. exact K.
      * eapply ends_bind; [apply ends_getToken; neutral_type|]. intros key K. eapply ends_bind; [apply ends_setRawToken|]. intros _ _. apply ends_ret. exact K.
Qed.

Lemma link_start_parts : forall s i j, find_link_start s = Some (i, j) ->
  exists a m b, s = a ++ "["%char :: m ++ ":"%char :: b /\ length a = i /\ j = length a + S (S (length m)).
Proof.
  intros s i j E. destruct (link_start_at s i j E) as (A & L & C).
  apply nth_error_split in A as (a & r & -> & <-). rewrite nth_error_app2 in C by lia.
  destruct (pred j - length a) as [|k] eqn:K; [discriminate|]. cbn [nth_error] in C. apply nth_error_split in C as (m & b & -> & <-).
  exists a, m, b. split; auto. split; auto. lia.
Qed.

Lemma parseImages_go_ends : forall fuel s, count (Ascii.eqb "[") s < fuel -> descends s ->
  ends (fun n => parseImages_go cfg (tok n) fuel s) (fun r => (r = s /\ find_link_start s = None) \/ (within r s /\ special r < special s)).
Proof.
  induction fuel as [|fuel IH]; intros s L H; [lia|]. cbn [parseImages_go]. destruct (find_link_start s) as [[i j]|] eqn:E; [|apply ends_ret; auto].
  apply link_start_parts in E as (a & m & b & -> & La & Lj).
  destruct (FindCorrespondingCloseToken _ _ _ _) as [e|] eqn:F; [|apply ends_panic]. apply findClose_position in F as (F & _); try discriminate.
  set (s := a ++ "["%char :: m ++ ":"%char :: b) in *.
  assert (Sk : forall n, j <= n -> skipn n s = skipn (n - j) b).
  { intros n Ln. assert (Q : s = (a ++ "["%char :: m ++ !":") ++ b) by (unfold s; rewrite <- !app_assoc; cbn [List.app]; rewrite <- app_assoc; reflexivity).
    assert (Z : length (a ++ "["%char :: m ++ !":") = j) by (rewrite app_length; cbn [length]; rewrite app_length; cbn [length list_ascii_of_string]; lia).
    rewrite Q, skipn_app, skipn_all2 by lia. rewrite Z. reflexivity. }
  assert (C1 : special s = special a + S (special m + S (special b))).
  { unfold s. rewrite special_app. unfold special. rewrite count_cons, count_app, count_cons. reflexivity. }
  assert (C2 : less s = less a + (less m + less b)).
  { unfold s. rewrite less_app. unfold less. rewrite count_cons, count_app, count_cons. reflexivity. }
  assert (W : within (sub s j e) b). { unfold sub. rewrite Sk by lia. eapply within_trans; [apply within_firstn|apply within_skipn]. }
  eapply ends_bind; [apply H; unfold within, below in *; lia|]. intros x X. cbn beta in X.
  eapply ends_bind; [apply escapeImages_ends|]. intros y (Y1 & Y2).
  eapply ends_bind with (P := neutral).
  - destruct (_ || _); [apply ends_ret; split; reflexivity|]. apply image_token_ends. intros z Z. apply H. unfold within, below in *. lia.
  - intros key K. destruct (_ <? _); [apply ends_panic|].
    assert (Fi : firstn i s = a) by (unfold s; subst i; rewrite firstn_app, Nat.sub_diag, firstn_all, firstn_O, app_nil_r; auto).
    rewrite Fi, Sk by lia. pose proof (within_skipn (e + 2 - j) b) as Wb. set (r := skipn (e + 2 - j) b) in *. set (s' := a ++ key ++ r).
    assert (R1 : within s' s) by (destruct K, Wb; unfold within, s'; rewrite !less_app, !special_app; lia).
    assert (R2 : special s' < special s) by (destruct K, Wb; unfold s'; rewrite !special_app; lia).
    eapply ends_weaken; [|apply IH].
    + intros z [(-> & _)|(Z1 & Z2)]; right; auto. split; [eapply within_trans; eauto|lia].
    + assert (Kb : count (Ascii.eqb "[") key = 0).
      { apply count_none. intros c Ic. destruct (Ascii.eqb_spec "["%char c) as [<-|]; auto. exfalso. destruct K as [_ K]. unfold special in K.
        apply in_split in Ic as (k1 & k2 & ->). rewrite count_app, count_cons in K. cbn in K. lia. }
      assert (Rb : count (Ascii.eqb "[") r <= count (Ascii.eqb "[") b).
      { unfold r. rewrite <- (firstn_skipn (e + 2 - j) b) at 2. rewrite count_app. lia. }
      assert (Cs : count (Ascii.eqb "[") s = count (Ascii.eqb "[") a + S (count (Ascii.eqb "[") m + count (Ascii.eqb "[") b)).
      { unfold s. rewrite count_app, count_cons, count_app, count_cons. reflexivity. }
      unfold s'. rewrite !count_app. lia.
    + eapply descends_within; eauto.
Qed.

Lemma parseImages_ends : forall s, descends s -> ends (fun n => parseImages cfg (tok n) s) (fun r => settled (fun s => find_link_start s = None) r s).
Proof.
  intros s H. unfold parseImages. eapply ends_weaken; [|apply parseImages_go_ends; [unfold count; lia|exact H]].
  intros r [(-> & N)|(W & L)]; [left; auto|right; apply below_lower, within_below; auto].
Qed.

(** ** Formulas *)

Lemma math_matches_tag : forall s skip m g, In (m, g) (math_matches s skip) -> exists m', m = "<"%char :: m'.
Proof.
  induction s as [|c s IH]; intros skip m g I; cbn [math_matches] in I; [destruct I|]. destruct skip as [|k]; [|eapply IH; eauto].
  destruct (math_match (c :: s)) as [[m0 g0]|] eqn:E; [|eapply IH; eauto]. destruct I as [I|I]; [|eapply IH; eauto]. injection I as -> ->.
  unfold math_match in E. destruct (has_prefix !"<math" (c :: s)) eqn:P; [|discriminate]. apply has_prefix_spec in P as (t & P). rewrite P in E.
  destruct (tag_end _) as [i|]; [|discriminate]. destruct (index _ _) as [j|]; [|discriminate]. injection E as E _. rewrite <- E. cbn. eauto.
Qed.

Lemma parseMath_go_ends : forall matches s, (forall m g, In (m, g) matches -> exists m', m = "<"%char :: m') ->
  ends (fun _ => parseMath_go matches s) (fun r => shrinks r s).
Proof.
  induction matches as [|[m g] matches IH]; intros s H; cbn [parseMath_go]; [apply ends_ret; left; auto|].
  eapply ends_bind; [apply ends_getToken; neutral_type|]. intros key K. eapply ends_bind; [apply ends_setRawToken|]. intros _ _.
  eapply ends_weaken; [|apply IH; intros; eapply H; right; eauto]. intros r R. eapply shrinks_trans; [exact R|]. unfold replace_first.
  destruct (index m s) as [i|] eqn:E; [|left; auto]. apply less_shrinks. destruct (H m g (or_introl eq_refl)) as (m' & ->).
  apply index_some_split in E as (a & b & Es & _ & -> & ->). rewrite Es, !less_app, (proj1 K), less_tag. lia.
Qed.

Lemma math_match_in : forall s skip m g, In (m, g) (math_matches s skip) -> contains m s = true.
Proof.
  induction s as [|c s IH]; intros skip m g I; cbn [math_matches] in I; [destruct I|].
  assert (Hs : forall k, In (m, g) (math_matches s k) -> contains m (c :: s) = true).
  { intros k J. apply IH in J. apply contains_spec in J as (a & b & ->). apply contains_spec. exists (c :: a), b. reflexivity. }
  destruct skip as [|k]; [|eauto]. destruct (math_match (c :: s)) as [[m0 g0]|] eqn:E; [|eauto]. destruct I as [I|I]; [|eauto]. injection I as -> ->.
  unfold math_match in E. destruct (has_prefix _ _); [|discriminate]. destruct (tag_end _) as [i|]; [|discriminate]. destruct (index _ _) as [j|]; [|discriminate].
  assert (E' : firstn (5 + i + 1 + j + 7) (c :: s) = m) by congruence. rewrite <- E'. clear. set (l := c :: s). apply contains_spec.
  exists [], (skipn (5 + i + 1 + j + 7) l). cbn [List.app]. symmetry. apply firstn_skipn.
Qed.

Lemma parseMath_ends : forall s, ends (fun _ => parseMath s) (fun r => settled (fun s => math_matches s 0 = []) r s).
Proof.
  intros s. unfold parseMath. pose proof (fun m g => math_match_in s 0 m g) as In1. pose proof (fun m g => math_matches_tag s 0 m g) as In2.
  destruct (math_matches s 0) as [|[m g] matches] eqn:E; [cbn [parseMath_go]; apply ends_ret; left; auto|]. cbn [parseMath_go].
  eapply ends_bind; [apply ends_getToken; neutral_type|]. intros key K. eapply ends_bind; [apply ends_setRawToken|]. intros _ _.
  eapply ends_weaken; [|apply parseMath_go_ends; intros m' g' I; eapply In2; right; eauto]. intros r R. right.
  assert (L : lower (replace_first m key s) s).
  { left. specialize (In1 m g (or_introl eq_refl)). destruct (In2 m g (or_introl eq_refl)) as (m' & ->). unfold replace_first.
    destruct (index _ s) as [i|] eqn:X; [|apply contains_false_index in X; congruence]. apply index_some_split in X as (a & b & Es & _ & -> & ->).
    rewrite Es, !less_app, (proj1 K), less_tag. lia. }
  destruct R as [->|R]; [exact L|exact (lower_trans _ _ _ R L)].
Qed.

(** ** Lists *)

Lemma tokenizes_below : forall x y, within x y -> special x < special y -> smaller y -> tokenizes x.
Proof. intros x y W L H. apply H; auto. Qed.

(** A line of a list: its first character is removed before it is tokenized *)
Definition list_line (line : str) : Prop := match line with [] => True | c :: _ => is_special c = true end /\ smaller line.

Lemma starting_special : forall c, isListStartingCharacter c = true -> is_special c = true.
Proof. intros c H. unfold isListStartingCharacter in H. repeat (apply orb_true_iff in H as [H|H]); apply Ascii.eqb_eq in H; subst; reflexivity. Qed.

Lemma belongs_special : forall line prefix, isListStartingCharacter prefix = true -> belongsToListPrefix line prefix = true ->
  match line with [] => True | c :: _ => is_special c = true end.
Proof.
  intros [|c line] prefix S B; auto. cbn [belongsToListPrefix] in B. destruct (Ascii.eqb prefix ";") eqn:P.
  - apply orb_true_iff in B as [B|B]; apply Ascii.eqb_eq in B; subst; reflexivity.
  - apply Ascii.eqb_eq in B. subst. apply starting_special. auto.
Qed.

Lemma take_while_In : forall f lines l, In l (take_while f lines) -> In l lines /\ f l = true.
Proof.
  induction lines as [|x lines IH]; intros l I; cbn [take_while] in I; [destruct I|]. destruct (f x) eqn:F; [|destruct I].
  destruct I as [<-|I]; [split; [left|]; auto|]. destruct (IH l I). split; [right|]; auto.
Qed.

Lemma list_text : forall c text x, is_special c = true -> smaller (c :: text) -> within x text -> tokenizes x.
Proof.
  intros c text x S H W. eapply tokenizes_below; [| |exact H].
  - eapply within_trans; [exact W|apply within_cons].
  - destruct W as [_ W]. unfold special in *. rewrite count_cons, S. lia.
Qed.

Lemma lineItems_ends : forall c text, is_special c = true -> smaller (c :: text) -> ends (fun n => lineItems (tok n) c text) whatever.
Proof.
  intros c text S H. unfold lineItems. assert (T : forall x, within x text -> tokenizes x) by (intros; eapply list_text; eauto).
  destruct (Ascii.eqb c ";").
  - pose proof (within_split2 !":" text) as W. destruct (split2 !":" text) as [|head [|item [|y l]]];
      try (eapply ends_bind; [apply T; apply within_refl|]; intros; apply ends_ret; exact I).
    eapply ends_bind; [apply T; apply W; left; auto|]. intros h _. eapply ends_bind; [apply T; apply W; right; left; auto|]. intros i _. apply ends_ret. exact I.
  - destruct (Ascii.eqb c ":"); (eapply ends_bind; [apply T; apply within_refl|]; intros; apply ends_ret; exact I).
Qed.

Lemma longest_In : forall lines l, In l lines -> length l <= longest lines.
Proof. induction lines as [|x lines IH]; intros l []; cbn; [subst; lia|]. specialize (IH l H). unfold longest in IH. lia. Qed.

Lemma longest_le : forall lines n, (forall l, In l lines -> length l <= n) -> longest lines <= n.
Proof. induction lines as [|x lines IH]; intros n H; cbn; [lia|]. apply Nat.max_lub; [apply H; left; auto|]. apply IH. intros. apply H. right. auto. Qed.

Lemma trim_length : forall s, length (trim_space s) <= length s.
Proof. intros s. destruct (trim_space_spec s) as (l & r & E & _). rewrite E at 2. rewrite !app_length. lia. Qed.

Section SubList.
Variable sub_list : nat -> list str -> ascii -> M ListToken.
Variable bound : nat.
Variable sub_list_ends : forall lines prefix, 0 < bound -> isListStartingCharacter prefix = true -> (forall l, In l lines -> smaller l /\ length l < bound) ->
  ends (fun n => sub_list n lines prefix) whatever.

Lemma listItems_ends : forall prefix lines skip items, (forall l, In l lines -> list_line l /\ length l <= bound) ->
  ends (fun n => listItems (tok n) (sub_list n) prefix lines skip items) whatever.
Proof.
  intros prefix. induction lines as [|line lines IH]; intros skip items H; cbn [listItems]; [apply ends_ret; exact I|].
  assert (H' : forall l, In l lines -> list_line l /\ length l <= bound) by (intros; apply H; right; auto).
  destruct skip as [|k]; [|apply IH; auto]. destruct (H line (or_introl eq_refl)) as ((S & L) & B). destruct line as [|c text]; [apply IH; auto|].
  destruct text as [|d text].
  - eapply ends_bind; [apply lineItems_ends; auto|]. intros i _. apply IH; auto.
  - destruct (isListStartingCharacter d) eqn:D.
    + eapply ends_bind; [apply sub_list_ends; [cbn [length] in B; lia|auto|]|].
      * intros l I. apply take_while_In in I as [I _]. apply in_map_iff in I as (l' & <- & I). destruct (H l' I) as ((_ & Sl) & Bl). split.
        { eapply smaller_within; [|exact Sl]. apply within_tl. }
        { cbn [length] in B. destruct l'; cbn [tl length] in *; lia. }
      * intros s _. apply IH; auto.
    + eapply ends_bind; [apply lineItems_ends; auto|]. intros i _. apply IH; auto.
Qed.
End SubList.

Lemma tokenizeList_ends : forall fuel lines prefix, isListStartingCharacter prefix = true -> (forall l, In l lines -> smaller l /\ length l < fuel) ->
  0 < fuel -> ends (fun n => tokenizeList (tok n) fuel lines prefix)
    (fun r => neutral (snd (fst r)) /\ snd r = length (take_while (fun line => belongsToListPrefix line prefix) (map trim_space lines))).
Proof.
  induction fuel as [|fuel IH]; intros lines prefix S H N; [lia|]. cbn [tokenizeList].
  eapply ends_bind.
  - apply listItems_ends with (sub_list := fun n lines prefix => do! (token, _, _) := tokenizeList (tok n) fuel lines prefix in ret token) (bound := fuel).
    + intros lines' prefix' P S' H'. eapply ends_bind; [apply IH; auto|]. intros [[x y] z] _. apply ends_ret. exact I.
    + intros l I. apply take_while_In in I as [I B]. apply in_map_iff in I as (l' & <- & I). destruct (H l' I) as (Sl & Ll). split.
      * split; [eapply belongs_special; eauto|]. eapply smaller_within; [apply within_trim|exact Sl].
      * pose proof (trim_length l'). lia.
  - intros items _. eapply ends_bind; [apply ends_getToken|].
    + unfold getListTokenKey. destruct (Ascii.eqb prefix "*"); [neutral_type|]. destruct (Ascii.eqb prefix "#"); neutral_type.
    + intros key K. eapply ends_bind; [apply ends_setRawToken|]. intros _ _. apply ends_ret. split; [exact K|reflexivity].
Qed.

Definition no_list (line : str) : Prop := match trim_space line with [] => True | c :: _ => isListStartingCharacter c = false end.

Lemma parseLists_go_ends : forall lines skip, (forall l, In l lines -> smaller l) -> ends (fun n => parseLists_go (tok n) lines skip)
  (fun r => within (concat r) (concat lines) /\ (skip = 0 -> fewer no_list r lines)).
Proof.
  induction lines as [|line lines IH]; intros skip H; cbn [parseLists_go]; [apply ends_ret; split; [apply within_refl|left; auto]|].
  assert (H' : forall l, In l lines -> smaller l) by (intros; apply H; right; auto).
  destruct skip as [|k].
  - assert (G : no_list line -> ends (fun n => do! r := parseLists_go (tok n) lines 0 in ret (line :: r)) (fun r => within (concat r) (concat (line :: lines)) /\ (0 = 0 -> fewer no_list r (line :: lines)))).
    { intros NL. eapply ends_bind; [apply IH; auto|]. intros r (W & F). apply ends_ret. split; [cbn [concat]; apply within_app; auto; apply within_refl|].
      intros _. apply fewer_cons; auto. }
    unfold no_list in G. destruct (trim_space line) as [|c text] eqn:T; [exact (G I)|]. destruct (isListStartingCharacter c) eqn:S; [|exact (G eq_refl)].
    eapply ends_bind; [apply (tokenizeList_ends _ (line :: lines))|].
    + exact S.
    + intros l I. split; [apply H; auto|]. pose proof (longest_In _ _ I). lia.
    + lia.
    + intros [[x key] n] (K & _). cbn [fst snd] in K. eapply ends_bind; [apply IH; auto|]. intros r (W & _). apply ends_ret.
      assert (F : fewer no_list (key :: r) (line :: lines)).
      { apply fewer_first; auto; [apply neutral_within; auto|]. destruct K as [_ ->]. destruct (within_trim line) as [_ V]. rewrite T in V.
        unfold special in *. rewrite count_cons, (starting_special c S) in V. lia. }
      split; [eapply fewer_within; exact F|auto].
  - eapply ends_weaken; [|apply IH; auto]. intros r (W & _). split; [cbn [concat]; apply within_skip; exact W|discriminate].
Qed.

Lemma parseLists_ends : forall s, smaller s -> ends (fun n => parseLists (tok n) s) (fun r => settled (fun s => Forall no_list (split nl s)) r s).
Proof.
  intros s H. unfold parseLists. eapply ends_bind; [apply parseLists_go_ends|].
  - intros l I. eapply smaller_within; [|exact H]. eapply within_piece; [|exact I]. discriminate.
  - intros r (_ & F). apply ends_ret. apply fewer_settled. auto.
Qed.

(** ** Tables *)

Lemma continuation_parts : forall lines, match continuation lines with Ok (more, after) => lines = more ++ after | OutOfFuel => False | _ => True end.
Proof.
  induction lines as [|line lines IH]; cbn [continuation]; auto. destruct (starts_entry line); auto.
  destruct (continuation lines) as [[c r]| | |]; cbn [bind]; auto. subst. auto.
Qed.

Lemma cell_lines_parts : forall lines, match cell_lines lines with Ok (more, after) => lines = more ++ after | OutOfFuel => False | _ => True end.
Proof.
  intros [|line lines]; cbn [cell_lines]; auto. destruct (starts_entry _); auto. pose proof (continuation_parts lines) as H.
  destruct (continuation lines) as [[c r]| | |]; cbn [bind]; auto. subst. auto.
Qed.

Lemma caption_lines_parts : forall lines, match caption_lines lines with Ok (more, after) => exists pre, lines = pre ++ after /\ more = map trim_space pre | OutOfFuel => False | _ => True end.
Proof.
  induction lines as [|line lines IH]; cbn [caption_lines]; auto. destruct (starts_entry _); [exists []; auto|].
  destruct (caption_lines lines) as [[c r]| | |]; cbn [bind]; auto. destruct IH as (pre & -> & ->). exists (line :: pre). auto.
Qed.

Lemma concat_trim : forall l, within (concat (map trim_space l)) (concat l).
Proof. induction l as [|x l IH]; [apply within_refl|]. cbn [map concat]. apply within_app; auto. apply within_trim. Qed.

Lemma concat_lines : forall l, within (concat (map (fun x => nl ++ x) l)) (concat l).
Proof. induction l as [|x l IH]; [apply within_refl|]. cbn [map concat]. apply within_app; auto. apply within_neutral; [apply neutral_nl|apply within_refl]. Qed.

Lemma continuation_within : forall l, within (continuation_text l) (concat l).
Proof.
  intros [|x l]; [apply within_refl|]. unfold continuation_text. eapply within_trans; [apply concat_lines|]. cbn [concat]. apply within_app; [apply within_trim|apply within_refl].
Qed.

Lemma within_trim_prefix : forall p s, within (trim_prefix p s) s.
Proof. intros p s. unfold trim_prefix. destruct (has_prefix p s); [apply within_skipn|apply within_refl]. Qed.

Definition fine (s : str) : Prop := forall x, within x s -> tokenizes x.
Lemma fine_within : forall x y, within x y -> fine y -> fine x.
Proof. intros x y W H z V. apply H. eapply within_trans; eauto. Qed.

Lemma tokenizeTableEntry_ends : forall s, fine s -> ends (fun n => tokenizeTableEntry (tok n) s) whatever.
Proof.
  intros s H. unfold tokenizeTableEntry. pose proof (fun x => within_piece !"|" s x ltac:(discriminate)) as W. destruct (split !"|" s) as [|a [|text l]].
  - eapply ends_bind; [apply H; apply within_refl|]. intros. apply ends_ret. exact I.
  - eapply ends_bind; [apply H; apply within_refl|]. intros. apply ends_ret. exact I.
  - eapply ends_bind; [apply H; apply W; right; left; auto|]. intros. apply ends_ret. exact I.
Qed.

(** The lines behind a part of a table *)
Definition remains (after lines : list str) : Prop := exists pre, lines = pre ++ after.

Lemma remains_refl : forall l, remains l l.
Proof. intros. exists []. auto. Qed.
Lemma remains_trans : forall a b c, remains a b -> remains b c -> remains a c.
Proof. intros a b c (x & ->) (y & ->). exists (y ++ x). rewrite app_assoc. auto. Qed.
Lemma remains_cons : forall a x l, remains a l -> remains a (x :: l).
Proof. intros a x l (p & ->). exists (x :: p). auto. Qed.
Lemma remains_length : forall a l, remains a l -> length a <= length l.
Proof. intros a l (p & ->). rewrite app_length. lia. Qed.
Lemma remains_within : forall a l, remains a l -> within (concat a) (concat l).
Proof. intros a l (p & ->). apply within_concat_app. Qed.
Lemma remains_In : forall a l x, remains a l -> In x a -> In x l.
Proof. intros a l x (p & ->) I. apply in_app_iff. auto. Qed.

Definition ends_row (line : str) : bool := has_prefix !"|-" line || has_prefix !"|+" line || has_prefix !"|}" line.

Lemma tokenizeTableRow_go_ends : forall fuel lines, length lines <= fuel -> fine (concat lines) -> ends (fun n => tokenizeTableRow_go (tok n) fuel lines)
  (fun r => remains (snd r) lines /\ match lines with [] => True | line :: lines' => ends_row (trim_space line) = false -> remains (snd r) lines' end).
Proof.
  induction fuel as [|fuel IH]; intros lines L H; destruct lines as [|line lines]; cbn [tokenizeTableRow_go]; cbn [length] in L;
    try (apply ends_ret; split; [apply remains_refl|exact I]); [lia|].
  fold (ends_row (trim_space line)). destruct (ends_row (trim_space line)); [apply ends_ret; split; [apply remains_refl|discriminate]|].
  pose proof (cell_lines_parts lines) as C. eapply ends_bind with (P := fun r => lines = fst r ++ snd r).
  - apply ends_lift. destruct (cell_lines lines) as [[c r]| | |]; auto.
  - intros [more after] E. cbn [fst snd] in E. subst lines. clear C. rewrite app_length in L.
    eapply ends_bind; [apply tokenizeTableEntry_ends|].
    + eapply fine_within; [|exact H]. cbn [concat]. rewrite concat_app. apply within_app.
      * eapply within_trans; [apply within_trim|]. eapply within_trans; [apply within_trim_prefix|]. eapply within_trans; [apply within_trim_prefix|]. apply within_trim.
      * apply within_keep. apply continuation_within.
    + intros [text attributes] _. eapply ends_bind; [apply IH; [lia|]|].
      * eapply fine_within; [|exact H]. cbn [concat]. apply within_skip. apply within_concat_app.
      * intros [columns r] (R & _). apply ends_ret. cbn [snd] in *.
        assert (R' : remains r (more ++ after)) by (eapply remains_trans; [exact R|exists more; auto]).
        split; [apply remains_cons; exact R'|auto].
Qed.

Lemma tokenizeTableCaption_ends : forall line lines, fine (concat (line :: lines)) -> ends (fun n => tokenizeTableCaption (tok n) line lines)
  (fun r => remains (snd r) lines).
Proof.
  intros line lines H. unfold tokenizeTableCaption. pose proof (caption_lines_parts lines) as C.
  eapply ends_bind with (P := fun r => exists pre, lines = pre ++ snd r /\ fst r = map trim_space pre).
  - apply ends_lift. destruct (caption_lines lines) as [[c r]| | |]; auto.
  - intros [more after] (pre & E & F). cbn [fst snd] in E, F. subst lines more. clear C. eapply ends_bind; [apply tokenizeTableEntry_ends|].
    + eapply fine_within; [|exact H]. eapply within_trans; [apply within_trim_prefix|]. cbn [concat]. rewrite concat_app. apply within_app; [apply within_trim|].
      apply within_keep. eapply within_trans; [apply concat_lines|apply concat_trim].
    + intros [text x] _. apply ends_ret. cbn [snd]. exists pre. auto.
Qed.

Lemma tokenizeTable_go_ends : forall fuel lines rows caption, length lines <= fuel -> fine (concat lines) ->
  ends (fun n => tokenizeTable_go (tok n) fuel lines rows caption) whatever.
Proof.
  induction fuel as [|fuel IH]; intros lines rows caption L H; destruct lines as [|line lines]; cbn [tokenizeTable_go]; cbn [length] in L;
    try (apply ends_ret; exact I); [lia|].
  assert (H' : fine (concat lines)) by (eapply fine_within; [|exact H]; cbn [concat]; apply within_r).
  assert (N : forall after, remains after lines -> length after <= fuel /\ fine (concat after)).
  { intros after R. split; [exact (Nat.le_trans _ _ _ (remains_length _ _ R) (le_S_n _ _ L))|]. eapply fine_within; [apply remains_within; exact R|exact H']. }
  destruct (has_prefix !"|+" (trim_space line)) eqn:P1.
  { eapply ends_bind; [apply tokenizeTableCaption_ends; exact H|]. intros [c after] R. cbn [snd] in R. destruct (N after R). apply IH; auto. }
  destruct (has_prefix !"!" (trim_space line)) eqn:P2.
  { eapply ends_bind; [apply tokenizeTableRow_go_ends; [auto|exact H]|]. intros [row after] (_ & R). cbn [snd] in R.
    assert (E : ends_row (trim_space line) = false).
    { unfold ends_row. apply has_prefix_spec in P2 as (t & ->). reflexivity. }
    destruct (N after (R E)). apply IH; auto. }
  destruct (has_prefix !"|-" (trim_space line)) eqn:P3.
  { destruct lines as [|next lines]; [apply ends_panic|]. destruct (_ || _).
    - eapply ends_bind; [apply tokenizeTableRow_go_ends; [auto|exact H']|]. intros [row after] (R & _). cbn [snd] in R. destruct (N after R). apply IH; auto.
    - apply IH; auto. lia. }
  destruct (has_prefix !"|}" (trim_space line)) eqn:P4; [apply ends_ret; exact I|].
  destruct (has_prefix !"|" (trim_space line)) eqn:P5.
  { eapply ends_bind; [apply tokenizeTableRow_go_ends; [auto|exact H]|]. intros [row after] (_ & R). cbn [snd] in R.
    assert (E : ends_row (trim_space line) = false) by (unfold ends_row; rewrite P1, P3, P4; reflexivity).
    destruct (N after (R E)). apply IH; auto. }
  apply IH; auto. lia.
Qed.

(** The first line of a table *)
Definition table_line (line : str) : Prop := exists l colons y, line = l ++ colons ++ "{"%char :: y /\ blank l /\ ~ In nl_char l /\ Forall (eq ":"%char) colons.

Lemma table_start_spec : forall s p, table_start s = Some p -> exists y, s = p ++ !"{|" ++ y /\ Forall (eq ":"%char) p.
Proof.
  induction s as [|c s IH]; intros p E; cbn [table_start] in E; [discriminate|]. destruct (Ascii.eqb_spec c ":"%char) as [->|N].
  - destruct (table_start s) as [q|]; [|discriminate]. cbn in E. injection E as <-. destruct (IH q eq_refl) as (y & -> & F). exists y. split; auto.
  - destruct (has_prefix !"{|" (c :: s)) eqn:P; [|discriminate]. injection E as <-. apply has_prefix_spec in P as (y & ->). exists y. split; auto.
Qed.

Lemma table_start_line : forall line p, ~ In nl_char line -> table_start (trim_space line) = Some p -> table_line line /\ special p < special line /\ less p = 0.
Proof.
  intros line p N E. apply table_start_spec in E as (y & E & F). destruct (trim_space_spec line) as (l & r & El & B & _). rewrite E in El.
  split; [|split].
  - exists l, p, (!"|" ++ y ++ r). rewrite El. rewrite <- !app_assoc. split; [reflexivity|]. split; auto. split; auto. intros I. apply N. rewrite El. apply in_app_iff. auto.
  - rewrite El. rewrite !special_app. change (special !"{|") with 1. lia.
  - apply count_none. intros c I. rewrite Forall_forall in F. rewrite <- (F c I). reflexivity.
Qed.

Lemma replace_pair_front : forall c new a s, ~ In c a -> replace_all [c; c] new (a ++ s) = a ++ replace_all [c; c] new s.
Proof.
  intros c new a s N. induction a as [|x a IH]; auto. cbn [List.app]. rewrite replace_all_cons.
  - rewrite IH; auto. intros I. apply N. right. auto.
  - apply has_prefix_neq. intros ->. apply N. left. auto.
Qed.

Lemma blank_no : forall c l, solid c = true -> blank l -> ~ In c l.
Proof.
  intros c l S B. induction B as [|p s I B IH]; [intros []|]. intros J. apply in_app_iff in J as [J|J]; auto. exact (solid_In c p S I J).
Qed.

Lemma finishTable_ends : forall line lines, table_line line -> smaller (concat (line :: lines)) -> ends (fun n => finishTable (tok n) (line :: lines)) neutral.
Proof.
  intros line lines (l & colons & y & E & B & Nl & F) H. unfold finishTable, tokenizeTable.
  eapply ends_bind with (P := whatever).
  - set (text := join nl (line :: lines)).
    set (text1 := replace_all !"||" (nl ++ !"|") text). set (text2 := replace_all !"!!" (nl ++ !"!") text1).
    assert (front : str) by exact []. clear front. set (front := l ++ colons ++ !"{").
    assert (NF : forall c, solid c = true -> ~ In c !":{" -> ~ In c front).
    { intros c Sc Nc I. unfold front in I. apply in_app_iff in I as [I|I]; [exact (blank_no c l Sc B I)|]. apply in_app_iff in I as [I|I].
      - rewrite Forall_forall in F. apply Nc. left. apply F. auto.
      - apply Nc. right. exact I. }
    assert (T0 : exists z, text = front ++ z).
    { unfold text, front. rewrite E. destruct lines as [|x lines].
      - exists y. cbn [join]. rewrite <- !app_assoc. reflexivity.
      - exists (y ++ nl ++ join nl (x :: lines)). rewrite join_cons by discriminate. rewrite <- !app_assoc. reflexivity. }
    destruct T0 as (z & T0).
    assert (T1 : exists z1, text1 = front ++ z1).
    { unfold text1. rewrite T0. eexists. apply (replace_pair_front "|"%char). apply NF; [reflexivity|]. intros [K|[K|[]]]; discriminate. }
    destruct T1 as (z1 & T1).
    assert (T2 : exists z2, text2 = front ++ z2).
    { unfold text2. rewrite T1. eexists. apply (replace_pair_front "!"%char). apply NF; [reflexivity|]. intros [K|[K|[]]]; discriminate. }
    destruct T2 as (z2 & T2).
    assert (W : within text2 (concat (line :: lines))).
    { eapply within_trans; [apply within_replace; [discriminate|neutral_type]|]. eapply within_trans; [apply within_replace; [discriminate|neutral_type]|].
      apply within_join. apply neutral_nl. }
    assert (NN : ~ In nl_char front).
    { unfold front. intros I. apply in_app_iff in I as [I|I]; auto. apply in_app_iff in I as [I|I].
      - rewrite Forall_forall in F. specialize (F _ I). discriminate.
      - destruct I as [I|[]]. discriminate. }
    assert (S : exists w rest, split nl text2 = (front ++ w) :: rest /\ within (concat rest) (concat (line :: lines)) /\ special (concat rest) < special (concat (line :: lines))).
    { pose proof (within_split nl text2 ltac:(discriminate)) as V. destruct (first_char nl_char z2) as [Nz|(w & b & Ez & Nw)].
      - exists z2, []. rewrite T2 in *. rewrite (split_single_none nl_char) by (intros I; apply in_app_iff in I as [I|I]; auto). split; auto.
        split; [apply within_nil|]. destruct W as [_ W]. rewrite special_app in W. unfold front in W. rewrite !special_app in W. change (special !"{") with 1 in W.
        cbn [concat] in *. change (special []) with 0. lia.
      - exists w, (split nl b). rewrite T2, Ez, app_assoc in *. change nl with [nl_char] in *. rewrite split_single_app in * by (intros I; apply in_app_iff in I as [I|I]; auto).
        split; auto. cbn [concat] in V. pose proof (within_trans _ _ _ V W) as V'. split.
        + eapply within_trans; [|exact V']. apply within_r.
        + destruct V' as [_ V']. rewrite special_app in V'. unfold front in V'. rewrite !special_app in V'. change (special !"{") with 1 in V'. lia. }
    destruct S as (w & rest & S & W' & L). rewrite S. cbn [length tokenizeTable_go].
    assert (T : exists t, trim_space (front ++ w) = hd zero (colons ++ !"{") :: t).
    { assert (Sd : solid (hd zero (colons ++ !"{")) = true /\ exists q, colons ++ !"{" = hd zero (colons ++ !"{") :: q).
      { destruct colons as [|c colons]; cbn [List.app hd list_ascii_of_string]; [split; [reflexivity|eauto]|]. pose proof (Forall_inv F). subst c. split; [reflexivity|eauto]. }
      destruct Sd as (Sd & q & Q). destruct (trim_space_spec (front ++ w)) as (l' & r' & Et & Bl & Br & G).
      unfold front. rewrite Q in *. rewrite <- app_assoc. cbn [List.app hd] in *. unfold trim_space. rewrite trim_left_blank by exact B.
      rewrite trim_left_fix by (intros p Ip; apply solid_first; auto).
      destruct (trim_right_spec (hd zero (colons ++ !"{") :: q ++ w)) as (r & Er & _ & _). rewrite Q in Er. cbn [hd] in Er.
      destruct (trim_right _) as [|c t] eqn:Tr; [|injection Er as <- _; eauto].
      exfalso. destruct (trim_right_spec (hd zero (colons ++ !"{") :: q ++ w)) as (r2 & Er2 & Br2 & _). rewrite Q in Er2. cbn [hd] in Er2. rewrite Tr in Er2. cbn [List.app] in Er2.
      rewrite <- Er2 in Br2. apply (blank_no _ _ Sd Br2). left. auto. }
    destruct T as (t & T). rewrite T.
    assert (D : hd zero (colons ++ !"{") = ":"%char \/ hd zero (colons ++ !"{") = "{"%char).
    { destruct colons as [|c colons]; [right; reflexivity|left]. pose proof (Forall_inv F). subst c. reflexivity. }
    assert (G : ends (fun n => tokenizeTable_go (tok n) (length rest) rest [] []) whatever).
    { apply tokenizeTable_go_ends; auto. intros x X. apply H; [eapply within_trans; eauto|]. destruct X as [_ X]. lia. }
    eapply ends_bind with (P := whatever).
    + destruct D as [-> | ->]; exact G.
    + intros [rows caption] _. apply ends_ret. exact I.
  - intros token _. eapply ends_bind; [apply ends_getToken; neutral_type|]. intros key K. eapply ends_bind; [apply ends_setRawToken|]. intros _ _. apply ends_ret. exact K.
Qed.

Lemma nested_start : forall line, ~ In nl_char line -> has_prefix !"{|" (trim_space line) || has_prefix !":{|" (trim_space line) = true -> table_line line.
Proof.
  intros line N P. destruct (table_start (trim_space line)) as [p|] eqn:E; [apply (table_start_line line p N E)|].
  exfalso. apply orb_true_iff in P as [P|P]; apply has_prefix_spec in P as (t & P); rewrite P in E; cbn in E; discriminate.
Qed.

Lemma tokenizeTables_go_ends : forall fuel lines, length lines <= fuel -> (forall l, In l lines -> ~ In nl_char l) -> smaller (concat lines) ->
  ends (fun n => tokenizeTables_go (tok n) fuel lines) (fun r => remains (snd r) lines /\ within (concat (fst r) ++ concat (snd r)) (concat lines)).
Proof.
  induction fuel as [|fuel IH]; intros lines L N H; destruct lines as [|line lines]; cbn [tokenizeTables_go]; cbn [length] in L;
    try (apply ends_ret; split; [apply remains_refl|apply within_refl]); [inversion L|].
  assert (L' : length lines <= fuel) by (apply le_S_n; exact L).
  assert (N' : forall l, In l lines -> ~ In nl_char l) by (intros; apply N; right; auto).
  assert (H' : smaller (concat lines)) by (eapply smaller_within; [|exact H]; cbn [concat]; apply within_r).
  destruct (_ || _) eqn:P.
  - apply nested_start in P; [|apply N; left; auto]. eapply ends_bind; [apply IH; auto|]. intros [nested after] (R & W). cbn [fst snd] in R, W.
    eapply ends_bind; [apply finishTable_ends; [exact P|]|].
    { eapply smaller_within; [|exact H]. cbn [concat]. apply within_app; [apply within_refl|]. eapply within_trans; [apply within_l|exact W]. }
    intros key K. eapply ends_bind; [apply IH|].
    { exact (Nat.le_trans _ _ _ (remains_length _ _ R) L'). }
    { intros l J. apply N'. eapply remains_In; eauto. }
    { eapply smaller_within; [|exact H']. apply remains_within. exact R. }
    intros [r after'] (R' & W'). cbn [fst snd] in R', W'. apply ends_ret. cbn [fst snd]. split.
    + apply remains_cons. eapply remains_trans; eauto.
    + cbn [concat]. rewrite <- app_assoc. apply within_neutral; auto. apply within_skip. eapply within_trans; [exact W'|apply remains_within; exact R].
  - destruct (has_prefix !"|}" (trim_space line)).
    + apply ends_ret. cbn [fst snd concat]. rewrite app_nil_r. split; [apply remains_cons, remains_refl|apply within_refl].
    + eapply ends_bind; [apply IH; auto|]. intros [r after] (R & W). cbn [fst snd] in R, W. apply ends_ret. cbn [fst snd concat]. split; [apply remains_cons; exact R|].
      rewrite <- app_assoc. apply within_app; [apply within_refl|exact W].
Qed.

Definition no_table (line : str) : Prop := table_start (trim_space line) = None.

Lemma parseTables_go_ends : forall fuel lines, length lines <= fuel -> (forall l, In l lines -> ~ In nl_char l) -> smaller (concat lines) ->
  ends (fun n => parseTables_go (tok n) fuel lines) (fun r => fewer no_table r lines).
Proof.
  induction fuel as [|fuel IH]; intros lines L N H; destruct lines as [|line lines]; cbn [parseTables_go]; cbn [length] in L;
    try (apply ends_ret; left; split; auto); [inversion L|].
  assert (L' : length lines <= fuel) by (apply le_S_n; exact L).
  assert (N' : forall l, In l lines -> ~ In nl_char l) by (intros; apply N; right; auto).
  assert (H' : smaller (concat lines)) by (eapply smaller_within; [|exact H]; cbn [concat]; apply within_r).
  destruct (table_start _) as [p|] eqn:P.
  - apply table_start_line in P as (P & Sp & Lp); [|apply N; left; auto]. unfold tokenizeTables.
    eapply ends_bind with (P := fun r => neutral (fst r) /\ remains (snd r) lines).
    + eapply ends_bind; [apply tokenizeTables_go_ends; auto|]. intros [r after] (R & W). cbn [fst snd] in R, W.
      eapply ends_bind; [apply finishTable_ends; [exact P|]|].
      { eapply smaller_within; [|exact H]. cbn [concat]. apply within_app; [apply within_refl|]. eapply within_trans; [apply within_l|exact W]. }
      intros key K. apply ends_ret. auto.
    + intros [key after] (K & R). cbn [fst snd] in K, R. eapply ends_bind; [apply IH|].
      { exact (Nat.le_trans _ _ _ (remains_length _ _ R) L'). }
      { intros l J. apply N'. eapply remains_In; eauto. }
      { eapply smaller_within; [|exact H']. apply remains_within. exact R. }
      intros r F. apply ends_ret. apply fewer_first.
      * destruct K as [K1 K2]. split; [rewrite less_app|rewrite special_app]; lia.
      * destruct K as [K1 K2]. rewrite special_app. lia.
      * eapply within_trans; [eapply fewer_within; exact F|apply remains_within; exact R].
  - eapply ends_bind; [apply IH; auto|]. intros r F. apply ends_ret. apply fewer_cons; [exact P|exact F].
Qed.

Lemma parseTables_ends : forall s, smaller s -> ends (fun n => parseTables (tok n) s) (fun r => settled (fun s => Forall no_table (split nl s)) r s).
Proof.
  intros s H. unfold parseTables. eapply ends_bind; [apply parseTables_go_ends; auto|].
  - intros l J. pose proof (split_single_pieces nl_char s) as F. rewrite Forall_forall in F. exact (F l J).
  - eapply smaller_within; [|exact H]. apply within_split. discriminate.
  - intros r F. apply ends_ret. apply fewer_settled. exact F.
Qed.

End Recursive.

(** ** Paragraphs *)

Definition empties (lines : list str) : nat := length (filter is_empty lines).

Lemma empties_cons : forall x l, empties (x :: l) = (if is_empty x then 1 else 0) + empties l.
Proof. intros x l. unfold empties. cbn [filter]. destruct (is_empty x); reflexivity. Qed.

Lemma is_empty_nil : forall x, is_empty x = str_eqb x [].
Proof. intros [|c x]; reflexivity. Qed.

(** Characters that no marker of a paragraph contains are kept. *)
Lemma paragraphs_keep : forall p, count p MARKER_PARAGRAPH = 0 -> forall lines before ignore create,
  filter p (concat (parseParagraphs_go before lines ignore create)) = filter p (concat lines).
Proof.
  intros p Z. assert (F : filter p MARKER_PARAGRAPH = []) by (apply length_zero_iff_nil; exact Z).
  induction lines as [|line lines IH]; intros before ignore create; [reflexivity|]. cbn [parseParagraphs_go].
  assert (K : forall b i c, filter p (concat (line :: parseParagraphs_go b lines i c)) = filter p (concat (line :: lines))).
  { intros. cbn [concat]. rewrite !filter_app, IH. reflexivity. }
  assert (D : forall b i c, str_eqb line [] = true -> filter p (concat (parseParagraphs_go b lines i c)) = filter p (concat (line :: lines))).
  { intros b i c E. apply str_eqb_eq in E. subst line. cbn [concat List.app]. apply IH. }
  destruct (is_token_line line); [apply K|]. destruct ignore.
  - destruct (str_eqb line []) eqn:E; cbn [negb]; [apply D; auto|]. destruct create; [|apply K].
    cbn [List.app]. change (concat (MARKER_PARAGRAPH :: ?l)) with (MARKER_PARAGRAPH ++ concat l). 
    rewrite <- (K line false false). cbn [concat]. rewrite filter_app, F. reflexivity.
  - destruct (str_eqb line [] && _) eqn:E; [|apply K]. apply andb_true_iff in E as [E _]. apply D; auto.
Qed.

Lemma paragraphs_empties : forall lines before ignore create,
  let r := parseParagraphs_go before lines ignore create in
  empties r <= empties lines /\ (create = false -> r = lines \/ empties r < empties lines) /\ (r = [] -> empties lines = length lines).
Proof.
  induction lines as [|line lines IH]; intros before ignore create; cbn zeta; [split; auto|]. cbn [parseParagraphs_go].
  assert (K : forall b i c, (create = false -> c = false) -> let r := line :: parseParagraphs_go b lines i c in
    empties r <= empties (line :: lines) /\ (create = false -> r = line :: lines \/ empties r < empties (line :: lines)) /\ (r = [] -> empties (line :: lines) = length (line :: lines))).
  { intros b i c C. cbn zeta. destruct (IH b i c) as (A & B & _). rewrite !empties_cons. split; [lia|]. split; [|discriminate].
    intros E. destruct (B (C E)) as [->|L]; [left; auto|right; lia]. }
  assert (D : forall b i c, str_eqb line [] = true -> let r := parseParagraphs_go b lines i c in
    empties r <= empties (line :: lines) /\ (create = false -> r = line :: lines \/ empties r < empties (line :: lines)) /\ (r = [] -> empties (line :: lines) = length (line :: lines))).
  { intros b i c E. cbn zeta. destruct (IH b i c) as (A & _ & G). rewrite !empties_cons, is_empty_nil, E. split; [lia|]. split; [intros; right; lia|].
    intros Z. cbn [length]. rewrite (G Z). reflexivity. }
  destruct (is_token_line line); [apply K; auto|]. destruct ignore.
  - destruct (str_eqb line []) eqn:E; cbn [negb]; [apply D; auto|]. destruct create; [|apply K; auto].
    destruct (K line false false (fun _ => eq_refl)) as (A & _ & _). cbn zeta in A. cbn [List.app]. rewrite empties_cons.
    change (is_empty MARKER_PARAGRAPH) with false. cbn iota. split; [lia|]. split; discriminate.
  - destruct (str_eqb line [] && _) eqn:E; [|apply K; auto]. apply andb_true_iff in E as [E _]. apply D; auto.
Qed.

Lemma filter_join_nl : forall p l, p nl_char = false -> filter p (join nl l) = filter p (concat l).
Proof.
  intros p l Z. induction l as [|x l IH]; auto. destruct l as [|y l].
  - cbn [join concat]. rewrite app_nil_r. reflexivity.
  - rewrite join_cons by discriminate. cbn [concat] in *. rewrite !filter_app, IH. unfold nl. cbn [filter]. rewrite Z, filter_app. reflexivity.
Qed.

Lemma parseParagraphs_lines : forall lines before ignore create l, In l (parseParagraphs_go before lines ignore create) -> l = MARKER_PARAGRAPH \/ In l lines.
Proof.
  induction lines as [|line lines IH]; intros before ignore create l J; [destruct J|]. cbn [parseParagraphs_go] in J.
  assert (G : forall b i c, In l (parseParagraphs_go b lines i c) -> l = MARKER_PARAGRAPH \/ In l (line :: lines)).
  { intros b i c X. apply IH in X as [X|X]; [left|right; right]; auto. }
  assert (K : forall b i c, In l (line :: parseParagraphs_go b lines i c) -> l = MARKER_PARAGRAPH \/ In l (line :: lines)).
  { intros b i c [X|X]; [right; left; auto|eauto]. }
  destruct (is_token_line line); [eauto|]. destruct ignore.
  - destruct (negb _); [|eauto]. destruct create; [destruct J as [J|J]; [left; auto|eauto]|eauto].
  - destruct (_ && _); eauto.
Qed.

Lemma parseParagraphs_shrinks : forall s, shrinks (parseParagraphs s) s.
Proof.
  intros s. unfold parseParagraphs. set (lines := split nl s). set (r := parseParagraphs_go [] lines true false).
  destruct (paragraphs_empties lines [] true false) as (_ & B & G). fold r in B, G.
  assert (J : join nl lines = s) by (apply join_split; discriminate).
  destruct (B eq_refl) as [E|L]; [left; rewrite E; exact J|].
  assert (K : forall p, p nl_char = false -> count p MARKER_PARAGRAPH = 0 -> filter p (join nl r) = filter p s).
  { intros p Z C. rewrite filter_join_nl, <- J, filter_join_nl by auto. apply paragraphs_keep. exact C. }
  assert (Hr : r = [] \/ split nl (join nl r) = r).
  { destruct r as [|x r'] eqn:Er; [left; auto|right]. rewrite <- Er. apply split_join_single; [rewrite Er; discriminate|].
    apply Forall_forall. intros l I. apply parseParagraphs_lines in I as [->|I].
    - intros Q. cbn in Q. repeat (destruct Q as [Q|Q]; [discriminate|]). exact Q.
    - pose proof (split_single_pieces nl_char s) as F. rewrite Forall_forall in F. exact (F l I). }
  assert (M : empty_lines (join nl r) < empty_lines s \/ join nl r = s).
  { unfold empty_lines at 2. fold lines. fold (empties lines). destruct Hr as [Z|Hr].
    - rewrite Z. change (empty_lines (join nl [])) with 1. specialize (G Z). destruct lines as [|x [|y l]] eqn:El.
      + rewrite G in L. cbn in L. lia.
      + right. rewrite <- J. cbn [join]. rewrite empties_cons in G. destruct x; [reflexivity|discriminate].
      + left. rewrite G. cbn [length]. lia.
    - left. unfold empty_lines. rewrite Hr. exact L. }
  destruct M as [M|M]; [|left; exact M]. right. unfold lower, less, special, count, unclosed.
  rewrite !K by reflexivity. right. split; [reflexivity|]. right. split; [reflexivity|]. right. split; [reflexivity|exact M].
Qed.

(** ** The parser *)

Section Config.
Variable cfg : configuration.

Lemma descends_shrinks : forall tok x y, shrinks x y -> descends tok y -> descends tok x.
Proof. intros tok x y S H z B. apply H. eapply shrinks_below; eauto. Qed.

Lemma passes_ends : forall tok s, descends tok s -> ends (fun n => passes cfg (tok n) s) (fun r => shrinks r s).
Proof.
  intros tok s H. unfold passes.
  assert (Step : forall (m : nat -> M str) k, ends m (fun r => shrinks r s) -> (forall x, shrinks x s -> descends tok x -> ends (fun n => k n x) (fun r => shrinks r s)) ->
    ends (fun n => bindM (m n) (k n)) (fun r => shrinks r s)).
  { intros m k Hm Hk. eapply ends_bind; [exact Hm|]. intros x X. apply Hk; [exact X|]. exact (descends_shrinks _ _ _ X H). }
  assert (From : forall P x (m : nat -> M str), shrinks x s -> ends m (fun r => settled P r x) -> ends m (fun r => shrinks r s)).
  { intros P x m X Hm. eapply ends_weaken; [|exact Hm]. intros r R. exact (shrinks_trans _ _ _ (settled_shrinks _ _ _ R) X). }
  apply Step; [eapply From; [apply shrinks_refl|apply parseNowiki_ends]|]. intros s1 S1 D1.
  apply Step; [eapply ends_weaken; [|apply parseBoldAndItalic_ends]; intros r R; exact (shrinks_trans _ _ _ R S1)|]. clear s1 S1 D1. intros s1 S1 D1.
  apply Step; [eapply (From _ s1 _ S1); apply parseHeadings_ends; apply descends_smaller; auto|]. clear s1 S1 D1. intros s1 S1 D1.
  apply Step; [eapply (From _ s1 _ S1); apply parseReferences_ends; apply descends_lighter; auto|]. clear s1 S1 D1. intros s1 S1 D1.
  apply Step; [eapply (From _ s1 _ S1); apply parseInternalLinks_ends; apply descends_smaller; auto|]. clear s1 S1 D1. intros s1 S1 D1.
  apply Step; [eapply (From _ s1 _ S1); apply parseGalleries_ends|]. clear s1 S1 D1. intros s1 S1 D1.
  apply Step; [eapply (From _ s1 _ S1); apply parseImageMaps_ends|]. clear s1 S1 D1. intros s1 S1 D1.
  apply Step; [eapply (From _ s1 _ S1); apply parseImages_ends; auto|]. clear s1 S1 D1. intros s1 S1 D1.
  apply Step; [eapply (From _ s1 _ S1); apply parseExternalLinks_ends; apply descends_smaller; auto|]. clear s1 S1 D1. intros s1 S1 D1.
  apply Step; [eapply (From _ s1 _ S1); apply parseMath_ends|]. clear s1 S1 D1. intros s1 S1 D1.
  apply Step; [eapply (From _ s1 _ S1); apply parseLists_ends; apply descends_smaller; auto|]. clear s1 S1 D1. intros s1 S1 D1.
  apply Step; [eapply (From _ s1 _ S1); apply parseTables_ends; apply descends_smaller; auto|]. clear s1 S1 D1. intros s1 S1 D1.
  apply ends_ret. eapply shrinks_trans; [apply parseParagraphs_shrinks|exact S1].
Qed.

Theorem tokenizeContent_ends : forall s, ends (fun n => tokenizeContent cfg n s) (fun r => shrinks r s).
Proof.
  intros s. pattern s. apply lower_ind. clear s. intros s IH.
  eapply ends_ext; [|apply (ends_shift _ (fun n => do! newContent := passes cfg (tokenizeContent cfg n) s in
      if str_eqb newContent s then ret newContent else tokenizeContent cfg n newContent))].
  - intros [|n]; reflexivity.
  - eapply ends_bind; [apply (passes_ends (tokenizeContent cfg))|].
    + intros x B. eapply ends_weaken; [|apply IH; apply below_lower; exact B]. intros r. apply shrinks_special.
    + intros x X. destruct (str_eqb x s) eqn:E; [apply ends_ret; exact X|].
      destruct X as [->|X]; [rewrite str_eqb_refl in E; discriminate|]. eapply ends_weaken; [|apply IH; exact X]. intros r R. eapply shrinks_trans; [exact R|right; exact X].
Qed.
End Config.
