(** * Lemmas about the Go string functions of GoStr.v *)

From Coq Require Import Ascii String.
From Coq Require Import List Arith NArith ZArith Bool Lia.
From Coq Require DecimalString DecimalNat DecimalFacts.
From Verif Require Import GoStr.
Import ListNotations.
Local Open Scope list_scope.

Lemma str_eqb_eq : forall a b, str_eqb a b = true <-> a = b.
Proof. intros a b; unfold str_eqb; destruct (str_eq_dec a b); split; intros; subst; auto; discriminate. Qed.

Lemma str_eqb_refl : forall a, str_eqb a a = true.
Proof. intros; apply str_eqb_eq; auto. Qed.

Lemma str_eqb_neq : forall a b, str_eqb a b = false <-> a <> b.
Proof. intros a b; unfold str_eqb; destruct (str_eq_dec a b); split; intros; subst; auto; try discriminate; contradiction. Qed.

Lemma mem_str_In : forall x l, mem_str x l = true <-> In x l.
Proof.
  intros x l; unfold mem_str; rewrite existsb_exists; split.
  - intros [y [Hy E]]; apply str_eqb_eq in E; subst; auto.
  - intros H; exists x; split; auto; apply str_eqb_refl.
Qed.

Lemma mem_str_not_In : forall x l, mem_str x l = false <-> ~ In x l.
Proof.
  intros; rewrite <- mem_str_In. destruct (mem_str x l); split; intros; auto; try discriminate; exfalso; auto.
Qed.

(** ** res *)

Lemma bind_ok : forall {A C} (r : res A) (f : A -> res C) c,
  bind r f = Ok c -> exists a, r = Ok a /\ f a = Ok c.
Proof. intros A C [a| | |] f c H; simpl in H; try discriminate; eauto. Qed.

(** ** has_prefix, has_suffix *)

Lemma has_prefix_app : forall p t, has_prefix p (p ++ t) = true.
Proof. induction p; simpl; intros; auto. rewrite Ascii.eqb_refl; simpl; auto. Qed.

Lemma has_prefix_spec : forall p s, has_prefix p s = true <-> exists t, s = p ++ t.
Proof.
  split.
  - revert s; induction p as [|a p IH]; simpl; intros s H.
    + exists s; auto.
    + destruct s as [|b s]; try discriminate.
      apply andb_true_iff in H as [E H]. apply Ascii.eqb_eq in E; subst.
      destruct (IH _ H) as [t ->]. exists t; auto.
  - intros [t ->]; apply has_prefix_app.
Qed.

Lemma has_prefix_cons : forall a p b s, has_prefix (a :: p) (b :: s) = Ascii.eqb a b && has_prefix p s.
Proof. auto. Qed.

Lemma has_prefix_neq : forall a p b s, a <> b -> has_prefix (a :: p) (b :: s) = false.
Proof. intros a p b s H; rewrite has_prefix_cons. apply Ascii.eqb_neq in H; rewrite H; auto. Qed.

Lemma has_prefix_refl : forall p, has_prefix p p = true.
Proof. intros; rewrite <- (app_nil_r p) at 2; apply has_prefix_app. Qed.

Lemma has_prefix_length : forall p s, has_prefix p s = true -> length p <= length s.
Proof. intros p s H; apply has_prefix_spec in H as [t ->]; rewrite app_length; lia. Qed.

Lemma has_prefix_false : forall p s, has_prefix p s = false <-> forall t, s <> p ++ t.
Proof.
  intros p s; split.
  - intros H t ->; rewrite has_prefix_app in H; discriminate.
  - intros H; destruct (has_prefix p s) eqn:E; auto.
    apply has_prefix_spec in E as [t ->]; exfalso; eapply H; eauto.
Qed.

Lemma has_prefix_app_l : forall p s t, has_prefix p s = true -> has_prefix p (s ++ t) = true.
Proof. intros p s t H; apply has_prefix_spec in H as [u ->]; rewrite <- app_assoc; apply has_prefix_app. Qed.

Lemma has_prefix_app_long : forall p s t, length p <= length s -> has_prefix p (s ++ t) = has_prefix p s.
Proof.
  induction p as [|a p IH]; intros [|b s] t H; simpl in *; auto; try lia.
  rewrite IH by lia; auto.
Qed.

Lemma has_prefix_skipn : forall p s, has_prefix p s = true -> s = p ++ skipn (length p) s.
Proof.
  intros p s H; apply has_prefix_spec in H as [t ->].
  rewrite skipn_app, skipn_all, Nat.sub_diag; auto.
Qed.

Lemma has_prefix_firstn : forall p s, has_prefix p s = true <-> firstn (length p) s = p.
Proof.
  intros p s; split; intros H.
  - apply has_prefix_spec in H as [t ->]. rewrite firstn_app, firstn_all, Nat.sub_diag; simpl; apply app_nil_r.
  - rewrite has_prefix_spec. exists (skipn (length p) s). rewrite <- H at 1. symmetry; apply firstn_skipn.
Qed.

Lemma has_prefix_trans : forall p q s, has_prefix p q = true -> has_prefix q s = true -> has_prefix p s = true.
Proof.
  intros p q s H1 H2; apply has_prefix_spec in H1 as [t ->]; apply has_prefix_spec in H2 as [u ->].
  rewrite <- app_assoc; apply has_prefix_app.
Qed.

Lemma has_suffix_spec : forall p s, has_suffix p s = true <-> exists t, s = t ++ p.
Proof.
  intros p s; unfold has_suffix; rewrite has_prefix_spec; split; intros [t H].
  - exists (rev t). rewrite <- (rev_involutive s), H, rev_app_distr, rev_involutive; auto.
  - subst; exists (rev t); apply rev_app_distr.
Qed.

Lemma has_suffix_app : forall p s, has_suffix p (s ++ p) = true.
Proof. intros; apply has_suffix_spec; eauto. Qed.

(** ** index, contains *)

Lemma index_some : forall p s i, index p s = Some i ->
  s = firstn i s ++ p ++ skipn (i + length p) s /\ i + length p <= length s /\
  (forall j, j < i -> has_prefix p (skipn j s) = false).
Proof.
  intros p s; induction s as [|c s IH]; intros i; simpl.
  - destruct p; simpl; intros H; try discriminate. inversion H; subst; simpl. repeat split; auto; intros; lia.
  - destruct (has_prefix p (c :: s)) eqn:E.
    + intros H; inversion H; subst; simpl. pose proof (has_prefix_length _ _ E).
      repeat split; auto; try (intros; lia). apply has_prefix_skipn; auto.
    + destruct (index p s) as [k|] eqn:K; simpl; intros H; inversion H; subst.
      destruct (IH _ eq_refl) as (A & L & N). simpl. repeat split.
      * f_equal; auto.
      * lia.
      * intros [|j] Hj; simpl; auto. apply N; lia.
Qed.

Lemma index_some_split : forall p s i, index p s = Some i ->
  exists a b, s = a ++ p ++ b /\ length a = i /\ firstn i s = a /\ skipn (i + length p) s = b.
Proof.
  intros p s i H. destruct (index_some _ _ _ H) as (A & L & _).
  exists (firstn i s), (skipn (i + length p) s); repeat split; auto.
  rewrite firstn_length; lia.
Qed.

Lemma index_none : forall p s, index p s = None <-> forall a b, s <> a ++ p ++ b.
Proof.
  intros p s; split.
  - intros H a b; revert s H; induction a as [|x a IH]; simpl; intros s H E; subst.
    + destruct (p ++ b) eqn:K; simpl in H; rewrite <- K, has_prefix_app in H; discriminate.
    + simpl in H. destruct (has_prefix p (x :: a ++ p ++ b)); try discriminate.
      destruct (index p (a ++ p ++ b)) eqn:K; try discriminate. eapply IH; eauto.
  - intros H; destruct (index p s) eqn:E; auto.
    apply index_some_split in E as (a & b & -> & _); exfalso; eapply H; eauto.
Qed.

Lemma index_none_cons : forall p c s, index p (c :: s) = None -> index p s = None.
Proof. intros p c s; simpl; destruct (has_prefix p (c :: s)); try discriminate; destruct (index p s); auto; discriminate. Qed.

Lemma index_none_prefix : forall p s, index p s = None -> has_prefix p s = false.
Proof. intros p [|c s]; simpl; destruct (has_prefix p _); auto; discriminate. Qed.

(** First occurrence: [p] occurs at |a| and nowhere before. *)
Lemma index_first : forall p a b,
  (forall j, j < length a -> has_prefix p (skipn j (a ++ p ++ b)) = false) ->
  index p (a ++ p ++ b) = Some (length a).
Proof.
  intros p a b; induction a as [|x a IH]; simpl; intros H.
  - destruct (p ++ b) eqn:E; simpl; rewrite <- E, has_prefix_app; auto.
  - pose proof (H 0 ltac:(lia)) as H0. simpl in H0. rewrite H0.
    rewrite IH; auto. intros j Hj; apply (H (S j)); lia.
Qed.

Lemma contains_spec : forall p s, contains p s = true <-> exists a b, s = a ++ p ++ b.
Proof.
  intros p s; unfold contains; destruct (index p s) eqn:E; split; intros H; auto; try discriminate.
  - apply index_some_split in E as (a & b & -> & _); eauto.
  - destruct H as (a & b & H). rewrite index_none in E. exfalso; eapply E; eauto.
Qed.

Lemma contains_false : forall p s, contains p s = false <-> forall a b, s <> a ++ p ++ b.
Proof.
  intros p s; unfold contains; rewrite <- index_none; destruct (index p s); split; intros; auto; discriminate.
Qed.

Lemma contains_false_index : forall p s, contains p s = false <-> index p s = None.
Proof. intros; rewrite contains_false, index_none; tauto. Qed.

Lemma contains_app_l : forall p s t, contains p s = true -> contains p (s ++ t) = true.
Proof.
  intros p s t; rewrite !contains_spec; intros (a & b & ->). exists a, (b ++ t).
  rewrite !app_assoc; auto.
Qed.
Lemma contains_app_r : forall p s t, contains p s = true -> contains p (t ++ s) = true.
Proof.
  intros p s t; rewrite !contains_spec; intros (a & b & ->). exists (t ++ a), b.
  rewrite !app_assoc; auto.
Qed.
Lemma contains_app_false : forall p s t, contains p (s ++ t) = false -> contains p s = false /\ contains p t = false.
Proof.
  intros p s t H; split; [destruct (contains p s) eqn:E|destruct (contains p t) eqn:E]; auto.
  - rewrite contains_app_l in H; auto.
  - rewrite contains_app_r in H; auto.
Qed.

Lemma contains_single : forall c s, contains [c] s = true <-> In c s.
Proof.
  intros c s; rewrite contains_spec; split.
  - intros (a & b & ->). apply in_or_app; right; left; auto.
  - intros H; apply in_split in H as (a & b & ->). exists a, b; auto.
Qed.

Lemma contains_single_false : forall c s, contains [c] s = false <-> ~ In c s.
Proof. intros; rewrite <- contains_single; destruct (contains [c] s); split; intros; auto; try discriminate; exfalso; auto. Qed.

(** ** split *)

Lemma split_go_nonempty : forall sep s k, split_go sep s k <> [].
Proof.
  intros sep s; induction s as [|c s IH]; intros k; simpl; try discriminate.
  destruct k; auto. destruct (has_prefix sep (c :: s)); try discriminate.
  destruct (split_go sep s 0); discriminate.
Qed.

Lemma split_nonempty : forall sep s, split sep s <> [].
Proof. intros; apply split_go_nonempty. Qed.

Lemma split_go_skip : forall sep s k, split_go sep s k = split_go sep (skipn k s) 0.
Proof.
  intros sep s; induction s as [|c s IH]; intros [|k]; simpl; auto.
Qed.

Lemma split_nil : forall sep, split sep [] = [[]].
Proof. auto. Qed.

Lemma split_sep : forall sep t, sep <> [] -> split sep (sep ++ t) = [] :: split sep t.
Proof.
  intros [|x sep] t N; try contradiction. unfold split; simpl.
  rewrite Ascii.eqb_refl; simpl. rewrite has_prefix_app. f_equal.
  rewrite split_go_skip. f_equal. rewrite skipn_app, skipn_all, Nat.sub_diag; auto.
Qed.

Lemma split_cons : forall sep c s, has_prefix sep (c :: s) = false ->
  split sep (c :: s) = match split sep s with h :: t => (c :: h) :: t | [] => [[c]] end.
Proof. intros sep c s H; unfold split; simpl; simpl in H; rewrite H; auto. Qed.

Lemma split_none : forall sep s, index sep s = None -> split sep s = [s].
Proof.
  intros sep s; induction s as [|c s IH]; intros H; auto.
  rewrite split_cons by (apply index_none_prefix; auto).
  rewrite IH by (eapply index_none_cons; eauto). auto.
Qed.

Lemma split_first : forall sep a b, sep <> [] -> index sep (a ++ sep ++ b) = Some (length a) ->
  split sep (a ++ sep ++ b) = a :: split sep b.
Proof.
  intros sep a b N. induction a as [|x a IH]; simpl app; intros H.
  - apply split_sep; auto.
  - simpl in H. destruct (has_prefix sep (x :: a ++ sep ++ b)) eqn:E; try discriminate.
    rewrite split_cons by exact E.
    rewrite IH; auto. destruct (index sep (a ++ sep ++ b)); inversion H; auto.
Qed.

Lemma split_index : forall sep s i, sep <> [] -> index sep s = Some i ->
  split sep s = firstn i s :: split sep (skipn (i + length sep) s).
Proof.
  intros sep s i N H. pose proof (index_some_split _ _ _ H) as (a & b & E & L & F & K).
  rewrite F, K. rewrite E. apply split_first; auto. rewrite <- E, H, L; auto.
Qed.

Lemma join_cons : forall sep a l, l <> [] -> join sep (a :: l) = a ++ sep ++ join sep l.
Proof. intros sep a [|b l] H; try contradiction; auto. Qed.

Lemma split_ind_len : forall sep (P : str -> Prop), sep <> [] ->
  (forall s, index sep s = None -> P s) ->
  (forall a b, index sep (a ++ sep ++ b) = Some (length a) -> P b -> P (a ++ sep ++ b)) ->
  forall s, P s.
Proof.
  intros sep P N H0 H1 s. remember (length s) as n eqn:E. revert s E.
  induction n as [n IH] using lt_wf_ind; intros s ->.
  destruct (index sep s) as [i|] eqn:K; auto.
  pose proof (index_some_split _ _ _ K) as (a & b & E & L & _). subst s.
  apply H1. { rewrite K, L; auto. }
  eapply IH; auto. rewrite !app_length. destruct sep; try contradiction; simpl; lia.
Qed.

Lemma join_split : forall sep s, sep <> [] -> join sep (split sep s) = s.
Proof.
  intros sep s N; pattern s; apply (split_ind_len sep); auto.
  - intros t H; rewrite split_none; auto.
  - intros a b H IH. rewrite split_first; auto. rewrite join_cons by apply split_nonempty. rewrite IH; auto.
Qed.

Lemma index_prefix_none : forall p a b, index p (a ++ p ++ b) = Some (length a) -> p <> [] -> index p a = None.
Proof.
  intros p a b H N. apply index_none; intros x y E; subst.
  destruct (index_some _ _ _ H) as (_ & _ & M).
  assert (L : length x < length (x ++ p ++ y)) by (rewrite !app_length; destruct p; simpl; try contradiction; lia).
  specialize (M _ L). rewrite <- !app_assoc in M. rewrite skipn_app, skipn_all, Nat.sub_diag in M. simpl in M.
  rewrite has_prefix_app in M; discriminate.
Qed.

Lemma split_pieces : forall sep s, sep <> [] -> Forall (fun p => index sep p = None) (split sep s).
Proof.
  intros sep s N; pattern s; apply (split_ind_len sep); auto.
  - intros t H; rewrite split_none; auto.
  - intros a b H IH. rewrite split_first; auto. constructor; auto. eapply index_prefix_none; eauto.
Qed.

(** One-character separators *)

Lemma has_prefix_single : forall c x s, has_prefix [c] (x :: s) = Ascii.eqb c x.
Proof. intros; simpl; apply andb_true_r. Qed.

Lemma index_single_app : forall c a b, ~ In c a -> index [c] (a ++ c :: b) = Some (length a).
Proof.
  intros c a b; induction a as [|x a IH]; intros H.
  - simpl; rewrite Ascii.eqb_refl; auto.
  - simpl app; simpl index. rewrite andb_true_r. destruct (Ascii.eqb c x) eqn:E.
    + apply Ascii.eqb_eq in E; subst; exfalso; apply H; left; auto.
    + rewrite IH; auto. intros K; apply H; right; auto.
Qed.

Lemma index_single_none : forall c s, index [c] s = None <-> ~ In c s.
Proof. intros; rewrite <- contains_false_index, contains_single_false; tauto. Qed.

Lemma split_single_cons : forall c s, split [c] (c :: s) = [] :: split [c] s.
Proof. intros c s; apply (split_sep [c] s); discriminate. Qed.

Lemma split_single_app : forall c a b, ~ In c a -> split [c] (a ++ c :: b) = a :: split [c] b.
Proof. intros c a b H; apply (split_first [c] a b); try discriminate. apply index_single_app; auto. Qed.

Lemma split_single_none : forall c s, ~ In c s -> split [c] s = [s].
Proof. intros; apply split_none; apply index_single_none; auto. Qed.

Lemma split_join_single : forall c l, l <> [] -> Forall (fun p => ~ In c p) l -> split [c] (join [c] l) = l.
Proof.
  intros c l; induction l as [|a l IH]; intros N F; try contradiction.
  inversion F; subst. destruct l as [|b l].
  - simpl; apply split_single_none; auto.
  - rewrite join_cons by discriminate. simpl ([c] ++ _). rewrite split_single_app by auto.
    f_equal; apply IH; auto; discriminate.
Qed.

Lemma split_single_pieces : forall c s, Forall (fun p => ~ In c p) (split [c] s).
Proof.
  intros c s. pose proof (split_pieces [c] s ltac:(discriminate)) as H.
  eapply Forall_impl; [|exact H]. intros a; apply index_single_none.
Qed.

Lemma split_app_single : forall c a b,
  split [c] (a ++ c :: b) = split [c] a ++ split [c] b.
Proof.
  intros c a; induction a as [|x a IH]; intros b.
  - simpl app; rewrite split_single_cons; auto.
  - simpl app. destruct (Ascii.eqb c x) eqn:E.
    + apply Ascii.eqb_eq in E; subst. rewrite !split_single_cons, IH; auto.
    + rewrite !split_cons by (rewrite has_prefix_single; auto). rewrite IH.
      destruct (split [c] a) eqn:K; [exfalso; eapply split_nonempty; eauto|]. auto.
Qed.

Lemma split_flat_In : forall c s p x, In p (split [c] s) -> In x p -> In x s.
Proof.
  intros c s p x Hp Hx. rewrite <- (join_split [c] s) by discriminate.
  induction (split [c] s) as [|a l IH]; simpl in Hp; try contradiction.
  destruct l as [|b l].
  - destruct Hp as [->|[]]; auto.
  - rewrite join_cons by discriminate. apply in_or_app. destruct Hp as [->|Hp]; auto.
    right; right; auto.
Qed.

(** ** replace_all *)

Lemma replace_go_skip : forall old new s k, replace_go old new s k = replace_go old new (skipn k s) 0.
Proof. intros old new s; induction s as [|c s IH]; intros [|k]; simpl; auto. Qed.

Lemma replace_all_nil : forall old new, replace_all old new [] = [].
Proof. auto. Qed.

Lemma replace_all_hit : forall old new t, old <> [] -> replace_all old new (old ++ t) = new ++ replace_all old new t.
Proof.
  intros [|x old] new t N; try contradiction. unfold replace_all; simpl.
  rewrite Ascii.eqb_refl; simpl. rewrite has_prefix_app. f_equal.
  rewrite replace_go_skip. f_equal. rewrite skipn_app, skipn_all, Nat.sub_diag; auto.
Qed.

Lemma replace_all_cons : forall old new c s, has_prefix old (c :: s) = false ->
  replace_all old new (c :: s) = c :: replace_all old new s.
Proof. intros old new c s H; unfold replace_all; simpl; simpl in H; rewrite H; auto. Qed.

Lemma replace_all_none : forall old new s, index old s = None -> replace_all old new s = s.
Proof.
  intros old new s; induction s as [|c s IH]; intros H; auto.
  rewrite replace_all_cons by (apply index_none_prefix; auto).
  rewrite IH; auto. eapply index_none_cons; eauto.
Qed.

Lemma replace_all_first : forall old new a b, old <> [] -> index old (a ++ old ++ b) = Some (length a) ->
  replace_all old new (a ++ old ++ b) = a ++ new ++ replace_all old new b.
Proof.
  intros old new a b N. induction a as [|x a IH]; simpl app; intros H.
  - apply replace_all_hit; auto.
  - simpl in H. destruct (has_prefix old (x :: a ++ old ++ b)) eqn:E; try discriminate.
    rewrite replace_all_cons by exact E.
    rewrite IH; auto. destruct (index old (a ++ old ++ b)); inversion H; auto.
Qed.

(** ReplaceAll is Split followed by Join. *)
Lemma replace_all_split : forall old new s, old <> [] -> replace_all old new s = join new (split old s).
Proof.
  intros old new s N; pattern s; apply (split_ind_len old); auto.
  - intros t H; rewrite split_none, replace_all_none; auto.
  - intros a b H IH. rewrite split_first, replace_all_first; auto.
    rewrite join_cons by apply split_nonempty. rewrite IH; auto.
Qed.

Lemma replace_all_single : forall c new s,
  replace_all [c] new s = flat_map (fun x => if Ascii.eqb c x then new else [x]) s.
Proof.
  intros c new s; induction s as [|x s IH]; auto. simpl flat_map.
  destruct (Ascii.eqb c x) eqn:E.
  - apply Ascii.eqb_eq in E; subst. change (x :: s) with ([x] ++ s). rewrite replace_all_hit by discriminate. rewrite IH; auto.
  - rewrite replace_all_cons by (rewrite has_prefix_single; auto). rewrite IH; auto.
Qed.

(** ** trimming *)

Lemma strip_go_skip : forall pats s k, strip_go pats s k = strip_go pats (skipn k s) 0.
Proof. intros pats s; induction s as [|c s IH]; intros [|k]; simpl; auto. Qed.

Lemma lead_len_some : forall pats s k, lead_len pats s = S k -> exists p, In p pats /\ has_prefix p s = true /\ length p = S k.
Proof.
  induction pats as [|p ps IH]; simpl; intros s k H; try discriminate.
  destruct (has_prefix p s) eqn:E.
  - exists p; auto.
  - destruct (IH _ _ H) as (q & A & B & C). exists q; auto.
Qed.

Lemma lead_len_none : forall pats s, (forall p, In p pats -> p <> []) -> lead_len pats s = 0 ->
  forall p, In p pats -> has_prefix p s = false.
Proof.
  induction pats as [|q ps IH]; simpl; intros s N H p Hp; try contradiction.
  destruct (has_prefix q s) eqn:E.
  - exfalso. apply (N q); auto. destruct q; auto; discriminate.
  - destruct Hp as [->|Hp]; auto.
Qed.

(** The strings made of the given patterns *)
Inductive made_of (pats : list str) : str -> Prop :=
| made_nil : made_of pats []
| made_cons : forall p s, In p pats -> made_of pats s -> made_of pats (p ++ s).

Lemma made_of_app : forall pats a b, made_of pats a -> made_of pats b -> made_of pats (a ++ b).
Proof. intros pats a b H; induction H; simpl; intros; auto. rewrite <- app_assoc; constructor; auto. Qed.

Lemma strip_go_spec : forall pats s, (forall p, In p pats -> p <> []) ->
  exists l, s = l ++ strip_go pats s 0 /\ made_of pats l /\
    (strip_go pats s 0 = [] \/ forall p, In p pats -> has_prefix p (strip_go pats s 0) = false).
Proof.
  intros pats s N. remember (length s) as n eqn:E. revert s E.
  induction n as [n IH] using lt_wf_ind; intros s ->.
  destruct s as [|c s].
  - exists []; split; [auto|split; [constructor|left; auto]].
  - simpl. destruct (lead_len pats (c :: s)) as [|k] eqn:K.
    + exists []; split; [auto|split; [constructor|right; apply lead_len_none; auto]].
    + destruct (lead_len_some _ _ _ K) as (p & Hp & Pp & Lp).
      apply has_prefix_spec in Pp as [t Et].
      destruct p as [|x p]; try discriminate. simpl in Et, Lp. inversion Et; subst x s.
      assert (k = length p) by lia; subst k.
      rewrite strip_go_skip, skipn_app, skipn_all, Nat.sub_diag. simpl.
      destruct (IH (length t)) with (s := t) as (l & A & B & C); auto.
      { simpl; rewrite app_length; lia. }
      exists ((c :: p) ++ l). split; [|split; [constructor; auto|auto]].
      rewrite <- app_assoc; simpl; f_equal. f_equal; auto.
Qed.

Lemma strip_go_fix : forall pats s, (forall p, In p pats -> p <> []) ->
  (forall p, In p pats -> has_prefix p s = false) -> strip_go pats s 0 = s.
Proof.
  intros pats [|c s] N H; auto. simpl. destruct (lead_len pats (c :: s)) eqn:K; auto.
  apply lead_len_some in K as (p & Hp & Pp & _). rewrite H in Pp; auto; discriminate.
Qed.

Lemma space_runes_nonempty : forall p, In p space_runes -> p <> [].
Proof. intros p H ->. repeat (destruct H as [H|H]; [discriminate|]). contradiction. Qed.

Lemma rev_space_runes_nonempty : forall p, In p (map (@rev ascii) space_runes) -> p <> [].
Proof.
  intros p H ->. apply in_map_iff in H as (q & E & Hq). apply (space_runes_nonempty q); auto.
  rewrite <- (rev_involutive q), E; auto.
Qed.

(** A text is blank when it consists of white space runes. *)
Definition blank (s : str) : Prop := made_of space_runes s.

Lemma trim_left_spec : forall s, exists l, s = l ++ trim_left s /\ blank l /\
  (forall p, In p space_runes -> has_prefix p (trim_left s) = false).
Proof.
  intros s. destruct (strip_go_spec space_runes s space_runes_nonempty) as (l & A & B & C).
  exists l; split; [auto|split; [auto|]]. intros p Hp. fold (trim_left s) in C.
  destruct C as [->|C]; auto. destruct p; auto. exfalso; eapply space_runes_nonempty; eauto.
Qed.

Lemma made_of_rev : forall pats s, made_of (map (@rev ascii) pats) s -> made_of pats (rev s).
Proof.
  intros pats s H; induction H; simpl. constructor.
  rewrite rev_app_distr. apply in_map_iff in H as (q & <- & Hq). rewrite rev_involutive.
  apply made_of_app; auto. rewrite <- (app_nil_r q); constructor; auto; constructor.
Qed.

Lemma trim_right_spec : forall s, exists r, s = trim_right s ++ r /\ blank r /\
  (forall p, In p space_runes -> has_suffix p (trim_right s) = false).
Proof.
  intros s. destruct (strip_go_spec (map (@rev ascii) space_runes) (rev s) rev_space_runes_nonempty) as (l & A & B & C).
  exists (rev l); unfold trim_right; split; [|split].
  - rewrite <- rev_app_distr, <- A, rev_involutive; auto.
  - apply made_of_rev; auto.
  - intros p Hp. unfold has_suffix. rewrite rev_involutive. destruct C as [->|C].
    + destruct (rev p) eqn:E; auto. exfalso; eapply space_runes_nonempty; eauto.
      rewrite <- (rev_involutive p), E; auto.
    + apply C; apply in_map; auto.
Qed.

Lemma trim_space_spec : forall s, exists l r, s = l ++ trim_space s ++ r /\ blank l /\ blank r /\
  (forall p, In p space_runes -> has_prefix p (trim_space s) = false /\ has_suffix p (trim_space s) = false).
Proof.
  intros s. destruct (trim_left_spec s) as (l & A & Bl & C).
  destruct (trim_right_spec (trim_left s)) as (r & D & Br & F).
  exists l, r. fold (trim_space s) in D, F. split; [|split; [auto|split; [auto|intros p H; split; auto]]].
  - rewrite <- D; auto.
  - destruct (has_prefix p (trim_space s)) eqn:E; auto.
    pose proof (C _ H) as K. rewrite D, has_prefix_app_l in K; auto; discriminate.
Qed.

Lemma trim_left_fix : forall s, (forall p, In p space_runes -> has_prefix p s = false) -> trim_left s = s.
Proof. intros; apply strip_go_fix; auto; apply space_runes_nonempty. Qed.

Lemma trim_right_fix : forall s, (forall p, In p space_runes -> has_suffix p s = false) -> trim_right s = s.
Proof.
  intros s H; unfold trim_right. rewrite strip_go_fix, rev_involutive; auto.
  - apply rev_space_runes_nonempty.
  - intros p Hp; apply in_map_iff in Hp as (q & <- & Hq). apply H; auto.
Qed.

Lemma trim_space_fix : forall s,
  (forall p, In p space_runes -> has_prefix p s = false) ->
  (forall p, In p space_runes -> has_suffix p s = false) -> trim_space s = s.
Proof. intros s H K; unfold trim_space; rewrite trim_left_fix, trim_right_fix; auto. Qed.

Lemma trim_space_idem : forall s, trim_space (trim_space s) = trim_space s.
Proof. intros s. destruct (trim_space_spec s) as (l & r & _ & _ & _ & H). apply trim_space_fix; apply H. Qed.

Lemma blank_has_prefix : forall s, blank s -> s <> [] -> exists p, In p space_runes /\ has_prefix p s = true.
Proof. intros s H N; destruct H; try contradiction. exists p; split; auto; apply has_prefix_app. Qed.

(** Two white space runes are never proper prefixes of each other. *)
Lemma space_runes_prefix_free : forall p q, In p space_runes -> In q space_runes -> has_prefix p q = true -> p = q.
Proof.
  assert (H : forallb (fun p => forallb (fun q => negb (has_prefix p q) || str_eqb p q) space_runes) space_runes = true)
    by (vm_compute; reflexivity).
  rewrite forallb_forall in H. intros p q Hp Hq E. specialize (H _ Hp). rewrite forallb_forall in H. specialize (H _ Hq).
  rewrite E in H; simpl in H. apply str_eqb_eq; auto.
Qed.

Lemma app_same_prefix : forall (p q a b : str), p ++ a = q ++ b -> has_prefix p q = true \/ has_prefix q p = true.
Proof.
  induction p as [|x p IH]; intros q a b H; simpl in *; auto.
  destruct q as [|y q]; simpl in *; auto. inversion H; subst. rewrite Ascii.eqb_refl; simpl. eapply IH; eauto.
Qed.

Lemma blank_tail : forall l s, blank l -> blank (l ++ s) -> blank s.
Proof.
  intros l s H; induction H; simpl; intros K; auto.
  rewrite <- app_assoc in K. inversion K as [|q t Hq Ht E].
  - destruct p; [|discriminate]. exfalso; eapply space_runes_nonempty; eauto.
  - assert (p = q).
    { destruct (app_same_prefix p q _ _ (eq_sym E)) as [F|F]; [|symmetry];
      apply space_runes_prefix_free; auto. }
    subst q. apply app_inv_head in E. subst t. auto.
Qed.

Lemma trim_space_blank : forall s, trim_space s = [] <-> blank s.
Proof.
  intros s; split; intros H.
  - destruct (trim_space_spec s) as (l & r & A & Bl & Br & _). rewrite H in A; simpl in A. rewrite A.
    apply made_of_app; auto.
  - destruct (trim_left_spec s) as (l & A & Bl & C).
    assert (K : blank (trim_left s)) by (eapply blank_tail; eauto; rewrite <- A; auto).
    unfold trim_space. destruct (trim_left s) eqn:E; auto.
    destruct (blank_has_prefix _ K ltac:(discriminate)) as (p & Hp & Pp). rewrite C in Pp; auto; discriminate.
Qed.

Lemma trim_space_In : forall s c, In c (trim_space s) -> In c s.
Proof.
  intros s c H. destruct (trim_space_spec s) as (l & r & A & _). rewrite A.
  apply in_or_app; right; apply in_or_app; left; auto.
Qed.

(** ** itoa *)

Lemma list_ascii_of_string_inj : forall a b, list_ascii_of_string a = list_ascii_of_string b -> a = b.
Proof.
  intros a b H. rewrite <- (string_of_list_ascii_of_string a), H, string_of_list_ascii_of_string; auto.
Qed.

Lemma itoa_inj : forall n m, itoa n = itoa m -> n = m.
Proof.
  intros n m H. unfold itoa in H. apply list_ascii_of_string_inj in H.
  apply (f_equal DecimalString.NilZero.uint_of_string) in H.
  assert (K : forall k, Nat.to_uint k <> Decimal.Nil).
  { intros k E. pose proof (DecimalNat.Unsigned.of_to k) as F. rewrite E in F. simpl in F. subst k. discriminate. }
  rewrite !DecimalString.NilZero.usu in H by apply K.
  inversion H as [E]. rewrite <- (DecimalNat.Unsigned.of_to n), E. apply DecimalNat.Unsigned.of_to.
Qed.

Lemma itoa_digits : forall n, Forall (fun c => is_digit c = true) (itoa n).
Proof.
  intros n. unfold itoa.
  assert (G : forall d, Forall (fun c => is_digit c = true) (list_ascii_of_string (DecimalString.NilEmpty.string_of_uint d))).
  { induction d; simpl; constructor; auto. }
  destruct (Nat.to_uint n); simpl; try (constructor; [reflexivity|apply G]).
  repeat constructor.
Qed.

Lemma itoa_nonempty : forall n, itoa n <> [].
Proof. intros n. unfold itoa. destruct (Nat.to_uint n); simpl; discriminate. Qed.

(** ** slices *)

Lemma skipn_skipn_add : forall {A} (s : list A) i j, skipn i (skipn j s) = skipn (j + i) s.
Proof. intros A s i j; revert s; induction j; intros s; simpl; auto. destruct s; auto. apply skipn_nil. Qed.

Lemma firstn_skipn_sub : forall (s : str) i j, i <= j -> firstn i s ++ sub s i j ++ skipn j s = s.
Proof.
  intros s i j H. unfold sub. rewrite <- (firstn_skipn i s) at 4. f_equal.
  rewrite <- (firstn_skipn (j - i) (skipn i s)) at 2. f_equal.
  rewrite skipn_skipn_add. f_equal; lia.
Qed.
