(** * Texts with token keys; runs of the tokenizer *)

From Coq Require Import Ascii String.
From Coq Require Import List Arith Bool Lia.
From Verif Require Import GoStr GoStrFacts TextFacts TokenModel TableModel TokenSpec ParagraphModel ParagraphProofs FormattingModel.
Import ListNotations.
Local Open Scope list_scope.

(** ** Texts with keys *)

Definition key_char (c : ascii) : bool := token_char c || Ascii.eqb c "$".
Definition dollars (s : str) : Prop := In "$"%char s.

(** The form of markers and of keys *)
Definition atom (a : str) : Prop := exists b, a = !"$$" ++ b ++ !"$$" /\ b <> [] /\ Forall (fun c => token_char c = true) b.

Lemma token_not_dollar : forall c, token_char c = true -> c <> "$"%char.
Proof. intros c H ->. vm_compute in H. discriminate. Qed.

Lemma key_char_dollar : forall c, key_char c = false -> c <> "$"%char.
Proof. intros c H ->. vm_compute in H. discriminate. Qed.

Lemma atom_chars : forall a, atom a -> Forall (fun c => key_char c = true) a.
Proof.
  intros a (b & -> & _ & F). apply Forall_app. split; [repeat constructor|]. apply Forall_app. split; [|repeat constructor].
  eapply Forall_impl; [|exact F]. intros c H. unfold key_char. rewrite H. auto.
Qed.

Lemma atom_ne : forall a, atom a -> a <> [].
Proof. intros a (b & -> & _). discriminate. Qed.

Lemma atom_last : forall a x c, atom a -> a = x ++ [c] -> c = "$"%char.
Proof.
  intros a x c (b & -> & _) E. change (!"$$" ++ b ++ !"$$") with (!"$$" ++ b ++ ["$"%char; "$"%char]) in E.
  assert (E2 : (!"$$" ++ b ++ ["$"%char]) ++ ["$"%char] = x ++ [c]) by (rewrite <- E, <- !app_assoc; auto).
  apply app_inj_tail in E2 as [_ E2]. auto.
Qed.

Lemma atom_head : forall a, atom a -> exists b, a = "$"%char :: b.
Proof. intros a (b & -> & _). eexists. reflexivity. Qed.

Section Keys.
Variable keys : list str.
Hypothesis atoms : Forall atom keys.

Lemma keys_atom : forall k, In k keys -> atom k.
Proof. rewrite Forall_forall in atoms. auto. Qed.

Lemma keyed_app : forall a b, keyed keys a -> keyed keys b -> keyed keys (a ++ b).
Proof. induction 1; intros; auto; [cbn; constructor; auto|]. rewrite <- app_assoc. constructor; auto. Qed.

Lemma keyed_single : forall k, In k keys -> keyed keys k.
Proof. intros k H. rewrite <- (app_nil_r k). apply keyed_key; auto. constructor. Qed.

Lemma keyed_plain : forall s, ~ dollars s -> keyed keys s.
Proof. induction s as [|c s IH]; intros H; constructor; [|apply IH]; intros D; apply H; subst; [left|right]; auto. Qed.

(** Text can be cut next to a character that does not occur in keys *)
Lemma keyed_cut : forall s, keyed keys s -> forall a c b, s = a ++ c :: b -> key_char c = false -> keyed keys a /\ keyed keys b.
Proof.
  induction 1 as [|d s D M IH|k s K M IH]; intros a c b E C.
  - destruct a; discriminate.
  - destruct a as [|d' a]; cbn in E; injection E as -> ->; [split; auto; constructor|].
    destruct (IH a c b eq_refl C) as [A B]. split; auto. constructor; auto.
  - pose proof (atom_chars k (keys_atom k K)) as F.
    destruct (app_app_cases _ _ _ _ E) as [(x & Ea & Es)|(x & Ek & Eb)].
    + subst a. destruct (IH x c b Es C) as [A B]. split; auto. constructor; auto.
    + destruct x as [|x0 x].
      * cbn in Eb. rewrite app_nil_r in Ek. subst a. destruct (IH [] c b (eq_sym Eb) C) as [_ B]. split; auto. apply keyed_single; auto.
      * exfalso. cbn in Eb. injection Eb as <- _. rewrite Ek, Forall_app in F. destruct F as [_ F]. inversion F. congruence.
Qed.

Lemma keyed_plain_prefix : forall p s, ~ dollars p -> keyed keys (p ++ s) -> keyed keys s.
Proof.
  induction p as [|c p IH]; intros s P M; auto. apply IH; [intros D; apply P; right; auto|].
  inversion M as [|d t D M' E|k t K M' E]; subst; auto.
  destruct (atom_head k (keys_atom k K)) as (b & ->). exfalso. apply P. injection E as <- _. left. auto.
Qed.

Lemma keyed_plain_suffix : forall s, keyed keys s -> forall a p, s = a ++ p -> ~ dollars p -> keyed keys a.
Proof.
  induction 1 as [|d s D M IH|k s K M IH]; intros a p E P.
  - destruct a; [constructor|discriminate].
  - destruct a as [|d' a]; [constructor|]. cbn in E. injection E as -> E. constructor; auto. eapply IH; eauto.
  - destruct (app_app_cases _ _ _ _ E) as [(x & Ea & Es)|(x & Ek & Eb)].
    + subst a. constructor; auto. eapply IH; eauto.
    + destruct (rev x) as [|y x'] eqn:R.
      * assert (x = []) by (rewrite <- (rev_involutive x), R; auto). subst x. rewrite app_nil_r in Ek. subst a. apply keyed_single; auto.
      * exfalso. assert (X : x = rev x' ++ [y]) by (rewrite <- (rev_involutive x), R; auto).
        rewrite X, app_assoc in Ek. apply (atom_last _ _ _ (keys_atom _ K)) in Ek. subst y p. apply P. unfold dollars. rewrite X, !in_app_iff. cbn. auto.
Qed.

Lemma keyed_inner : forall l s r, keyed keys (l ++ s ++ r) -> ~ dollars l -> ~ dollars r -> keyed keys s.
Proof. intros l s r M L R. apply keyed_plain_prefix in M; auto. eapply keyed_plain_suffix; eauto. Qed.

(** Separators: the first character does not occur in keys *)
Definition separator (s : str) : Prop := match s with c :: _ => key_char c = false /\ ~ dollars s | [] => False end.

Lemma keyed_around : forall a p b, separator p -> keyed keys (a ++ p ++ b) -> keyed keys a /\ keyed keys b.
Proof.
  intros a [|c p] b; [intros []|]. intros [C P] M. cbn [app] in M.
  destruct (keyed_cut _ M a c (p ++ b) eq_refl C) as [A B]. split; auto. apply keyed_plain_prefix in B; auto. intros D. apply P. right. auto.
Qed.

Lemma keyed_split : forall p, separator p -> forall s, keyed keys s -> Forall (keyed keys) (split p s).
Proof.
  intros p P s. assert (N : p <> []) by (intros ->; destruct P).
  remember (length s) as n eqn:L. revert s L. induction n as [n IH] using lt_wf_ind. intros s -> M.
  destruct (index p s) as [k|] eqn:E.
  - pose proof (split_index p s k N E) as S. apply index_some_split in E as (a & b & Es & Ea & _ & _).
    rewrite S. subst s k. rewrite firstn_app, firstn_all, Nat.sub_diag, app_nil_r.
    destruct (keyed_around a p b P M) as [A B]. constructor; auto.
    replace (skipn (length a + length p) (a ++ p ++ b)) with b
      by (rewrite app_assoc, <- app_length, skipn_app, skipn_all, Nat.sub_diag; auto).
    eapply IH; [|reflexivity|auto]. rewrite !app_length. destruct p; [congruence|cbn; lia].
  - rewrite split_none by auto. constructor; auto.
Qed.

Lemma keyed_join : forall p l, keyed keys p -> Forall (keyed keys) l -> keyed keys (join p l).
Proof.
  intros p l P F. induction F as [|x l X F IH]; [constructor|]. destruct l as [|y l]; [exact X|].
  change (join p (x :: y :: l)) with (x ++ p ++ join p (y :: l)). auto using keyed_app.
Qed.

Lemma keyed_replace : forall p r s, separator p -> keyed keys r -> keyed keys s -> keyed keys (replace_all p r s).
Proof.
  intros p r s P R M. rewrite replace_all_split by (intros ->; destruct P). apply keyed_join; auto. apply keyed_split; auto.
Qed.

Lemma keyed_split2 : forall p s, separator p -> keyed keys s -> Forall (keyed keys) (split2 p s).
Proof.
  intros p s P M. unfold split2. destruct (index p s) as [k|] eqn:E; [|constructor; auto].
  apply index_some_split in E as (a & b & -> & <- & _ & _). destruct (keyed_around a p b P M) as [A B].
  rewrite firstn_app, firstn_all, Nat.sub_diag, app_nil_r. constructor; auto. constructor; auto.
  rewrite app_assoc, <- app_length, skipn_app, skipn_all, Nat.sub_diag. auto.
Qed.

Lemma keyed_hd : forall l, Forall (keyed keys) l -> keyed keys (hd [] l).
Proof. destruct 1; cbn; auto. constructor. Qed.

Lemma keyed_last : forall l, Forall (keyed keys) l -> keyed keys (last l []).
Proof. induction 1; [constructor|]. destruct l; auto. Qed.

Lemma keyed_tl : forall (l : list str) (P : str -> Prop), Forall P l -> Forall P (tl l).
Proof. intros l P F. destruct F; cbn; auto. Qed.

Lemma keyed_concat : forall l, Forall (keyed keys) l -> keyed keys (concat l).
Proof. induction 1; [constructor|]. cbn. apply keyed_app; auto. Qed.

Lemma blank_dollars : forall s, blank s -> ~ dollars s.
Proof.
  intros s B. induction B as [|p s I B IH]; [intros []|]. unfold dollars. rewrite in_app_iff. intros [D|D]; [|apply IH; exact D].
  assert (H : forallb (fun p => negb (existsb (Ascii.eqb "$") p)) space_runes = true) by (vm_compute; auto).
  rewrite forallb_forall in H. specialize (H p I). apply negb_true_iff in H. rewrite <- not_true_iff_false in H. apply H.
  apply existsb_exists. exists "$"%char. auto.
Qed.

Lemma keyed_trim : forall s, keyed keys s -> keyed keys (trim_space s).
Proof.
  intros s M. destruct (trim_space_spec s) as (l & r & E & L & R & _). rewrite E in M. eapply keyed_inner; eauto using blank_dollars.
Qed.

Lemma keyed_trim_prefix : forall p s, ~ dollars p -> keyed keys s -> keyed keys (trim_prefix p s).
Proof.
  intros p s P M. unfold trim_prefix. destruct (has_prefix p s) eqn:H; auto. apply has_prefix_spec in H as (r & ->).
  rewrite skipn_app, skipn_all, Nat.sub_diag. cbn. eapply keyed_plain_prefix; eauto.
Qed.

(** Cuts at given positions *)
Lemma keyed_firstn : forall s i c, keyed keys s -> nth_error s i = Some c -> key_char c = false -> keyed keys (firstn i s).
Proof.
  intros s i c M N C. apply nth_error_split in N as (a & b & -> & <-). rewrite firstn_app, firstn_all, Nat.sub_diag, app_nil_r.
  destruct (keyed_cut _ M a c b eq_refl C); auto.
Qed.

Lemma keyed_skipn : forall s i c, keyed keys s -> nth_error s i = Some c -> key_char c = false -> keyed keys (skipn i s).
Proof.
  intros s i c M N C. apply nth_error_split in N as (a & b & -> & <-). rewrite skipn_app, skipn_all, Nat.sub_diag. cbn [app skipn].
  constructor; [apply key_char_dollar; auto|]. destruct (keyed_cut _ M a c b eq_refl C); auto.
Qed.

Lemma keyed_skipn_S : forall s i c, keyed keys s -> nth_error s i = Some c -> key_char c = false -> keyed keys (skipn (S i) s).
Proof.
  intros s i c M N C. pose proof N as N2. apply nth_error_split in N as (a & b & E & <-). 
  replace (skipn (S (length a)) s) with b; [subst s; destruct (keyed_cut _ M a c b eq_refl C); auto|].
  subst s. change (c :: b) with ([c] ++ b). rewrite app_assoc. rewrite skipn_app. rewrite skipn_all2 by (rewrite app_length; cbn; lia).
  rewrite app_length. cbn [length]. replace (S (length a) - (length a + 1)) with 0 by lia. auto.
Qed.
End Keys.

Lemma keyed_mono : forall k1 k2 s, incl k1 k2 -> keyed k1 s -> keyed k2 s.
Proof. intros k1 k2 s I M. induction M; constructor; auto. Qed.

(** ** Keys *)


Ltac solve_type := split; [discriminate|repeat constructor].

Lemma is_digit_token : forall c, is_digit c = true -> token_char c = true.
Proof. intros c H. unfold token_char. rewrite H. auto. Qed.

Lemma digit_underscore : forall n, ~ In "_"%char (itoa n).
Proof.
  intros n I. pose proof (itoa_digits n) as F. rewrite Forall_forall in F. specialize (F _ I). discriminate.
Qed.

Lemma last_sep : forall (c : ascii) a b a' b', ~ In c b -> ~ In c b' -> a ++ c :: b = a' ++ c :: b' -> a = a' /\ b = b'.
Proof.
  intros c a b a' b' N N' E. destruct (app_app_cases _ _ _ _ E) as [(x & Ea & Es)|(x & Ek & Eb)].
  - destruct x as [|y x]; cbn in Es; [injection Es as ->; rewrite app_nil_r in Ea; auto|]. injection Es as E1 E2. subst. destruct N. apply in_app_iff. right. left. auto.
  - destruct x as [|y x]; cbn in Eb; [injection Eb as ->; rewrite app_nil_r in Ek; auto|]. injection Eb as E1 E2. subst. destruct N'. apply in_app_iff. right. left. auto.
Qed.

Lemma token_key_inj : forall ty n ty' n', token_key ty n = token_key ty' n' -> ty = ty' /\ n = n'.
Proof.
  intros ty n ty' n' E. unfold token_key in E. apply app_inv_head in E.
  rewrite !app_assoc in E. apply app_inv_tail in E. rewrite <- !app_assoc in E. cbn [app] in E.
  apply last_sep in E as [-> E]; [|apply digit_underscore|apply digit_underscore]. apply itoa_inj in E. auto.
Qed.

Lemma token_key_atom : forall ty n, type_ok ty -> atom (token_key ty n).
Proof.
  intros ty n [N F]. exists (!"TOKEN_" ++ ty ++ !"_" ++ itoa n). split; [|split; [discriminate|]].
  - unfold token_key. rewrite <- !app_assoc. reflexivity.
  - repeat (apply Forall_app; split; auto); try (repeat constructor). eapply Forall_impl; [|apply itoa_digits]. apply is_digit_token.
Qed.

Lemma markers_atom : Forall atom all_markers.
Proof.
  assert (H : forall b, b <> [] -> forallb token_char b = true -> atom (!"$$" ++ b ++ !"$$")).
  { intros b N F. exists b. repeat split; auto. apply Forall_forall. apply forallb_forall. auto. }
  repeat constructor.
  - apply (H !"MARKER_BOLD_OPEN"); [discriminate|reflexivity].
  - apply (H !"MARKER_BOLD_CLOSE"); [discriminate|reflexivity].
  - apply (H !"MARKER_ITALIC_OPEN"); [discriminate|reflexivity].
  - apply (H !"MARKER_ITALIC_CLOSE"); [discriminate|reflexivity].
  - apply (H !"MARKER_PARAGRAPH"); [discriminate|reflexivity].
Qed.

(** ** States of the tokenizer *)

Definition keys (t : Tokenizer) : list str := all_markers ++ map_keys t.

Definition key_from (n : nat) (k : str) : Prop := exists ty i, k = token_key ty i /\ n <= i.


(** For [b = true] also the texts of the tokens are followed. *)
Definition ok (b : bool) (t : Tokenizer) : Prop := unique t /\ (b = true -> resolvable_map (tokenMap t)).
Definition good (b : bool) (t : Tokenizer) (s : str) : Prop := b = true -> keyed (keys t) s.

Definition grows (t t' : Tokenizer) : Prop :=
  exists l, tokenMap t' = l ++ tokenMap t /\ tokenCounter t <= tokenCounter t' /\ Forall (key_from (tokenCounter t)) (map fst l).

Lemma grows_refl : forall t, grows t t.
Proof. intros t. exists []. repeat split; auto. constructor. Qed.

Lemma grows_trans : forall a b c, grows a b -> grows b c -> grows a c.
Proof.
  intros a b c (l & E & L & F) (l' & E' & L' & F'). exists (l' ++ l). rewrite E', E, <- app_assoc. repeat split; auto; [lia|].
  rewrite map_app. apply Forall_app. split; auto. eapply Forall_impl; [|exact F']. intros k (ty & i & -> & I). exists ty, i. split; auto. lia.
Qed.

(** The tokens of the first state are in the second one. *)
Definition keeps (t t' : Tokenizer) : Prop := exists l, tokenMap t' = l ++ tokenMap t.

Lemma grows_keeps : forall t t', grows t t' -> keeps t t'.
Proof. intros t t' (l & E & _). exists l. auto. Qed.

Lemma keeps_refl : forall t, keeps t t.
Proof. intros t. exists []. auto. Qed.

Lemma keeps_trans : forall a b c, keeps a b -> keeps b c -> keeps a c.
Proof. intros a b c (l & E) (l' & E'). exists (l' ++ l). rewrite E', E, app_assoc. auto. Qed.

Lemma keeps_In : forall t t' k v, keeps t t' -> In (k, v) (tokenMap t) -> In (k, v) (tokenMap t').
Proof. intros t t' k v (l & E) I. rewrite E. apply in_app_iff. auto. Qed.

Lemma grows_keys : forall t t', grows t t' -> incl (keys t) (keys t').
Proof.
  intros t t' (l & E & _). unfold keys, map_keys. rewrite E, map_app. intros k I. rewrite !in_app_iff in *. tauto.
Qed.

Lemma keys_atoms : forall b t, ok b t -> Forall atom (keys t).
Proof.
  intros b t ((F & _) & _). apply Forall_app. split; [apply markers_atom|]. eapply Forall_impl; [|exact F].
  intros k (ty & i & T & -> & _). apply token_key_atom. auto.
Qed.

Lemma good_mono : forall b t t' s, grows t t' -> good b t s -> good b t' s.
Proof. intros b t t' s G H B. eapply keyed_mono; [apply grows_keys; eauto|]. auto. Qed.

Lemma Forall_good_mono : forall b t t' l, grows t t' -> Forall (good b t) l -> Forall (good b t') l.
Proof. intros b t t' l G H. eapply Forall_impl; [|exact H]. intros. eapply good_mono; eauto. Qed.

Lemma lookup_In : forall m k v, lookup_token k m = Some v -> In (k, v) m.
Proof.
  induction m as [|[k' v'] m IH]; intros k v E; [discriminate|]. cbn [lookup_token] in E. destruct (str_eqb k k') eqn:K; [|right; auto].
  apply str_eqb_eq in K. injection E as ->. subst. left. auto.
Qed.

Lemma In_lookup : forall m k v, NoDup (map fst m) -> In (k, v) m -> lookup_token k m = Some v.
Proof.
  induction m as [|[k' v'] m IH]; intros k v N I; [destruct I|]. cbn [map fst] in N. inversion N; subst. cbn [lookup_token]. destruct I as [I|I].
  - injection I as -> ->. rewrite str_eqb_refl. auto.
  - destruct (str_eqb k k') eqn:K; [|auto]. apply str_eqb_eq in K. subst. exfalso. apply H1. apply (in_map fst) in I. exact I.
Qed.

Lemma keeps_extends : forall t t', unique t' -> keeps t t' -> extends t t'.
Proof. intros t t' (_ & N) K k v L. apply In_lookup; auto. eapply keeps_In; eauto. apply lookup_In. auto. Qed.

(** ** Runs *)

Definition holds {A} (b : bool) (t : Tokenizer) (m : M A) (Q : Tokenizer -> A -> Prop) : Prop :=
  forall a t', m t = Ok (a, t') -> ok b t' /\ grows t t' /\ Q t' a.

Lemma holds_ret : forall A b t (a : A) (Q : Tokenizer -> A -> Prop), ok b t -> Q t a -> holds b t (ret a) Q.
Proof. intros A b t a Q O H a' t' E. injection E as <- <-. repeat split; auto; try apply O. apply grows_refl. Qed.

Lemma holds_bind : forall A C b t (m : M A) (f : A -> M C) Q R, holds b t m Q ->
  (forall a t', ok b t' -> grows t t' -> Q t' a -> holds b t' (f a) R) -> holds b t (bindM m f) R.
Proof.
  intros A C b t m f Q R H F c t2 E. unfold bindM in E. destruct (m t) as [[a t1]| | |] eqn:Em; try discriminate. cbn in E.
  destruct (H a t1 Em) as (O & G & K). destruct (F a t1 O G K c t2 E) as (O2 & G2 & K2). repeat split; auto; try apply O2. eapply grows_trans; eauto.
Qed.

Lemma holds_weaken : forall A b t (m : M A) (Q R : Tokenizer -> A -> Prop), holds b t m Q -> (forall a t', ok b t' -> grows t t' -> Q t' a -> R t' a) -> holds b t m R.
Proof. intros A b t m Q R H W a t' E. destruct (H a t' E) as (O & G & K). auto. Qed.

Lemma holds_panic : forall A b t (Q : Tokenizer -> A -> Prop), holds b t panic Q.
Proof. intros A b t Q a t' E. discriminate. Qed.

Lemma holds_fuel : forall A b t (Q : Tokenizer -> A -> Prop), holds b t out_of_fuel Q.
Proof. intros A b t Q a t' E. discriminate. Qed.

Lemma holds_if : forall A b t (c : bool) (m1 m2 : M A) Q, (c = true -> holds b t m1 Q) -> (c = false -> holds b t m2 Q) -> holds b t (if c then m1 else m2) Q.
Proof. intros. destruct c; auto. Qed.

Lemma key_fresh : forall t k n, unique t -> In k (map_keys t) -> key_from n k -> tokenCounter t <= n -> False.
Proof.
  intros t k n (F & _) I (ty & i & -> & L) C. rewrite Forall_forall in F. destruct (F _ I) as (ty' & j & _ & E & J).
  apply token_key_inj in E as [_ ->]. lia.
Qed.

(** A key that is taken first and used after other tokens have been created *)
Lemma holds_reserve_in : forall A C b t ty (m : M A) (v : A -> Token) Q (f : str -> A -> M C) R, ok b t -> type_ok ty ->
  (forall t', ok b t' -> grows t t' -> holds b t' m Q) ->
  (forall t' a, ok b t' -> grows t t' -> Q t' a -> Forall (good b t') (texts (v a))) ->
  (forall t1 t' a n, ok b t' -> grows t t' -> ok b t1 -> keeps t1 t' -> Q t1 a -> In (token_key ty n, v a) (tokenMap t') -> holds b t' (f (token_key ty n) a) R) ->
  holds b t (bindM (getToken ty) (fun k => bindM m (fun a => bindM (setRawToken k (v a)) (fun _ => f k a)))) R.
Proof.
  intros A C b t ty m v Q f R O T Hm Hv Hf c t2 E. unfold bindM, getToken, setRawToken in E. cbn [bind] in E.
  set (t1 := mkTokenizer (tokenMap t) (S (tokenCounter t)) (images t)) in *. set (k := token_key ty (tokenCounter t)) in *.
  assert (O1 : ok b t1).
  { destruct O as ((F & N) & M). split; [split|]; auto. unfold t1, map_keys. cbn. eapply Forall_impl; [|exact F].
    intros x (ty' & i & T' & -> & L). exists ty', i. repeat split; auto; try apply T'. }
  assert (G1 : grows t t1) by (exists []; repeat split; [cbn; lia|constructor]).
  destruct (m t1) as [[a t3]| | |] eqn:Em; try discriminate. cbn in E.
  destruct (Hm t1 O1 G1 a t3 Em) as (O3 & (l & E3 & L3 & F3) & K3).
  assert (G3 : grows t t3) by (eapply grows_trans; [exact G1|]; exists l; auto).
  specialize (Hv t3 a O3 G3 K3).
  set (t4 := mkTokenizer ((k, v a) :: tokenMap t3) (tokenCounter t3) (images t3)) in *.
  assert (K : ~ In k (map_keys t3)).
  { unfold map_keys. rewrite E3, map_app, in_app_iff. intros [I|I].
    - rewrite Forall_forall in F3. destruct (F3 _ I) as (ty' & i & E' & L). unfold k in E'. apply token_key_inj in E' as [_ E'].
      unfold t1 in L. cbn in L. lia.
    - destruct O as (U & _). eapply (key_fresh t k (tokenCounter t) U); eauto. exists ty, (tokenCounter t). auto. }
  assert (O4 : ok b t4).
  { destruct O3 as ((F & N) & M). split; [split|].
    - unfold t4, map_keys. cbn. constructor; auto. exists ty, (tokenCounter t). repeat split; auto; try apply T.
    - unfold t4, map_keys. cbn. constructor; auto.
    - intros B. unfold t4. cbn. constructor; auto. eapply Forall_impl; [|exact Hv]. intros s H. apply H. auto. }
  assert (G4 : grows t t4).
  { exists ((k, v a) :: l). unfold t4. cbn. rewrite E3. unfold t1 in *. cbn in *. repeat split; auto; [lia|]. constructor.
    - exists ty, (tokenCounter t). auto.
    - eapply Forall_impl; [|exact F3]. intros x (ty' & i & -> & L). exists ty', i. split; auto. lia. }
  assert (G34 : keeps t3 t4) by (exists [(k, v a)]; auto).
  destruct (Hf t3 t4 a _ O4 G4 O3 G34 K3 (or_introl eq_refl) c t2 E) as (O5 & G5 & K5). repeat split; auto; try apply O5. eapply grows_trans; eauto.
Qed.

Lemma holds_reserve : forall A C b t ty (m : M A) (v : A -> Token) Q (f : str -> A -> M C) R, ok b t -> type_ok ty ->
  (forall t', ok b t' -> grows t t' -> holds b t' m Q) ->
  (forall t' a, ok b t' -> grows t t' -> Q t' a -> Forall (good b t') (texts (v a))) ->
  (forall k t' a, ok b t' -> grows t t' -> In k (map_keys t') -> holds b t' (f k a) R) ->
  holds b t (bindM (getToken ty) (fun k => bindM m (fun a => bindM (setRawToken k (v a)) (fun _ => f k a)))) R.
Proof.
  intros A C b t ty m v Q f R O T Hm Hv Hf. eapply holds_reserve_in; eauto. intros t1 t' a n O' G' _ _ _ I. apply Hf; auto. apply (in_map fst) in I. exact I.
Qed.

Lemma bind_ret : forall A C (a : A) (f : A -> M C) t, bindM (ret a) f t = f a t.
Proof. reflexivity. Qed.

(** A new token *)
Lemma holds_token : forall C b t ty (v : Token) (f : str -> M C) R, ok b t -> type_ok ty -> Forall (good b t) (texts v) ->
  (forall k t', ok b t' -> grows t t' -> In k (map_keys t') -> holds b t' (f k) R) ->
  holds b t (bindM (getToken ty) (fun k => bindM (setRawToken k v) (fun _ => f k))) R.
Proof.
  intros C b t ty v f R O T Hv Hf.
  pose proof (holds_reserve unit C b t ty (ret tt) (fun _ => v) (fun _ _ => True) (fun k _ => f k) R O T) as H.
  apply H; auto.
  - intros t' O' _. apply holds_ret; auto.
  - intros t' _ _ G _. eapply Forall_good_mono; eauto.
Qed.

Lemma holds_token_in : forall C b t ty (v : Token) (f : str -> M C) R, ok b t -> type_ok ty -> Forall (good b t) (texts v) ->
  (forall t' n, ok b t' -> grows t t' -> In (token_key ty n, v) (tokenMap t') -> holds b t' (f (token_key ty n)) R) ->
  holds b t (bindM (getToken ty) (fun k => bindM (setRawToken k v) (fun _ => f k))) R.
Proof.
  intros C b t ty v f R O T Hv Hf.
  pose proof (holds_reserve_in unit C b t ty (ret tt) (fun _ => v) (fun _ _ => True) (fun k _ => f k) R O T) as H.
  apply H; auto.
  - intros t' O' _. apply holds_ret; auto.
  - intros t' _ _ G _. eapply Forall_good_mono; eauto.
Qed.

Lemma key_good : forall b t k, In k (map_keys t) -> good b t k.
Proof. intros b t k I B. apply keyed_single. unfold keys. apply in_app_iff. auto. Qed.

Lemma holds_mapM : forall A C b (f : A -> M C) (Q : Tokenizer -> C -> Prop), (forall t t' y, grows t t' -> Q t y -> Q t' y) ->
  forall l t, ok b t -> (forall x t', In x l -> ok b t' -> grows t t' -> holds b t' (f x) Q) -> holds b t (mapM f l) (fun t' => Forall (Q t')).
Proof.
  intros A C b f Q Mo l. induction l as [|x l IH]; intros t O H; cbn [mapM].
  - apply holds_ret; auto.
  - eapply holds_bind; [apply H; auto; [left; auto|apply grows_refl]|]. intros y t1 O1 G1 Q1.
    eapply holds_bind; [apply IH; auto|].
    + intros x' t' I O' G'. apply H; auto; [right; auto|]. eapply grows_trans; eauto.
    + intros ys t2 O2 G2 F. apply holds_ret; auto. constructor; auto. eapply Mo; eauto.
Qed.

Lemma holds_lift : forall A b t (r : res A) (Q : Tokenizer -> A -> Prop), ok b t -> (forall a, r = Ok a -> Q t a) -> holds b t (TableModel.lift r) Q.
Proof.
  intros A b t r Q O H a t' E. unfold TableModel.lift in E. destruct r; try discriminate. injection E as -> <-. repeat split; auto; try apply O. apply grows_refl.
Qed.

(** A pass *)
Definition sound (b : bool) (f : str -> M str) : Prop := forall t s, ok b t -> good b t s -> holds b t (f s) (good b).
