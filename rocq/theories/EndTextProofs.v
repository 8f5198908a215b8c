(** * Counting the characters of markup in a text *)

From Coq Require Import Ascii String.
From Coq Require Import List Arith NArith ZArith Bool Lia.
From Verif Require Import GoStr GoStrFacts TextFacts TrimFacts UtilModel SafeTextProofs TokenModel.
Import ListNotations.
Local Open Scope list_scope.

Definition count (p : ascii -> bool) (s : str) : nat := length (filter p s).

(** The beginnings of tags, and the characters of the other markup *)
Definition is_less (c : ascii) : bool := Ascii.eqb c "<".
Definition is_special (c : ascii) : bool := existsb (Ascii.eqb c) !"'=[*#;:{".
Definition less (s : str) : nat := count is_less s.
Definition special (s : str) : nat := count is_special s.

(** Opening brackets that are not followed by a closing one before the next opening one *)
Definition is_bracket (c : ascii) : bool := Ascii.eqb c "[" || Ascii.eqb c "]".
Fixpoint unclosed_brackets (s : str) : nat :=
  match s with
  | [] => 0
  | c :: s' => (if Ascii.eqb c "[" then match s' with d :: _ => if Ascii.eqb d "[" then 1 else 0 | [] => 1 end else 0) + unclosed_brackets s'
  end.
Definition unclosed (s : str) : nat := unclosed_brackets (filter is_bracket s).

(** Empty lines *)
Definition is_empty (s : str) : bool := match s with [] => true | _ => false end.
Definition empty_lines (s : str) : nat := length (filter is_empty (split nl s)).

(** ** Counts *)

Lemma count_app : forall p a b, count p (a ++ b) = count p a + count p b.
Proof. intros. unfold count. rewrite filter_app, app_length. auto. Qed.

Lemma count_cons : forall p c s, count p (c :: s) = (if p c then 1 else 0) + count p s.
Proof. intros. unfold count. cbn [filter]. destruct (p c); auto. Qed.

Lemma count_none : forall p s, (forall c, In c s -> p c = false) -> count p s = 0.
Proof.
  intros p s H. induction s as [|c s IH]; auto. rewrite count_cons, H by (left; auto). rewrite IH; auto. intros d D. apply H. right. auto.
Qed.

Lemma count_lower : forall p, (forall c, p (lower_char c) = p c) -> forall s, count p (to_lower s) = count p s.
Proof. intros p H s. induction s as [|c s IH]; auto. cbn [to_lower map]. rewrite !count_cons, H. unfold to_lower in IH. rewrite IH. auto. Qed.

Lemma lower_less : forall c, is_less (lower_char c) = is_less c.
Proof. intros [[] [] [] [] [] [] [] []]; vm_compute; reflexivity. Qed.

Lemma lower_special : forall c, is_special (lower_char c) = is_special c.
Proof. intros [[] [] [] [] [] [] [] []]; vm_compute; reflexivity. Qed.

Lemma count_join : forall p sep l, count p sep = 0 -> count p (join sep l) = count p (concat l).
Proof.
  intros p sep l H. induction l as [|a l IH]; auto. destruct l as [|b l]; [cbn; rewrite app_nil_r; auto|].
  rewrite join_cons by discriminate. cbn [concat]. rewrite !count_app, H, IH. cbn [concat]. rewrite !count_app. lia.
Qed.

(** ** Texts with no more markup than others *)

Definition within (x y : str) : Prop := less x <= less y /\ special x <= special y.
(** Texts without markup *)
Definition neutral (k : str) : Prop := less k = 0 /\ special k = 0.

Lemma within_refl : forall x, within x x.
Proof. split; lia. Qed.
Lemma within_trans : forall x y z, within x y -> within y z -> within x z.
Proof. intros x y z [] []. split; lia. Qed.
Lemma within_app : forall a b c d, within a b -> within c d -> within (a ++ c) (b ++ d).
Proof. unfold within, less, special. intros. rewrite !count_app. lia. Qed.
Lemma within_part : forall a b c, within b (a ++ b ++ c).
Proof. unfold within, less, special. intros. rewrite !count_app. lia. Qed.
Lemma within_r : forall a b, within b (a ++ b).
Proof. intros. rewrite <- (app_nil_r b) at 2. apply within_part. Qed.
Lemma within_l : forall a b, within a (a ++ b).
Proof. intros. apply (within_part []). Qed.
Lemma within_nil : forall x, within [] x.
Proof. split; cbn; lia. Qed.
Lemma within_skip : forall a b x, within x b -> within x (a ++ b).
Proof. intros. eapply within_trans; [eassumption|apply within_r]. Qed.
Lemma within_keep : forall a b x, within x a -> within x (a ++ b).
Proof. intros. eapply within_trans; [eassumption|apply within_l]. Qed.
Lemma within_both : forall a b x y, within x a -> within y b -> within (x ++ y) (a ++ b).
Proof. intros. apply within_app; auto. Qed.
Lemma within_neutral : forall k x y, neutral k -> within x y -> within (k ++ x) y.
Proof. unfold within, neutral, less, special. intros k x y [] []. rewrite !count_app. lia. Qed.
Lemma neutral_within : forall k x, neutral k -> within k x.
Proof. unfold within, neutral. intros k x [-> ->]. lia. Qed.
Lemma within_cons : forall c s, within s (c :: s).
Proof. intros. apply (within_r [c]). Qed.

Lemma within_firstn : forall n s, within (firstn n s) s.
Proof. intros. rewrite <- (firstn_skipn n s) at 2. apply within_l. Qed.
Lemma within_skipn : forall n s, within (skipn n s) s.
Proof. intros. rewrite <- (firstn_skipn n s) at 2. apply within_r. Qed.
Lemma within_sub : forall s i j, within (sub s i j) s.
Proof. intros. unfold sub. eapply within_trans; [apply within_firstn|apply within_skipn]. Qed.
Lemma within_trim : forall s, within (trim_space s) s.
Proof. intros. destruct (trim_space_spec s) as (l & r & E & _). rewrite E at 2. apply within_part. Qed.
Lemma within_tl : forall s, within (tl s) s.
Proof. intros [|c s]; [apply within_refl|apply within_cons]. Qed.

Lemma within_concat : forall l x, In x l -> within x (concat l).
Proof. induction l as [|a l IH]; intros x []; cbn [concat]; [subst; apply within_l|apply within_skip; auto]. Qed.
Lemma within_concat_app : forall a b, within (concat b) (concat (a ++ b)).
Proof. intros. rewrite concat_app. apply within_r. Qed.

Lemma concat_join : forall sep l, within (concat l) (join sep l).
Proof.
  intros sep l. induction l as [|a l IH]; [apply within_refl|]. destruct l as [|b l]; [cbn; rewrite app_nil_r; apply within_refl|].
  rewrite join_cons by discriminate. cbn [concat]. apply within_app; [apply within_refl|]. apply within_skip. exact IH.
Qed.

Lemma within_split : forall sep s, sep <> [] -> within (concat (split sep s)) s.
Proof. intros. rewrite <- (join_split sep s) at 2 by auto. apply concat_join. Qed.
Lemma within_piece : forall sep s x, sep <> [] -> In x (split sep s) -> within x s.
Proof. intros. eapply within_trans; [apply within_concat; eauto|apply within_split; auto]. Qed.
Lemma within_hd : forall sep s, sep <> [] -> within (hd [] (split sep s)) s.
Proof. intros sep s H. pose proof (within_piece sep s) as W. destruct (split sep s) as [|x l]; [apply within_nil|]. apply W; auto. left. auto. Qed.
Lemma within_last : forall sep s, sep <> [] -> within (last (split sep s) []) s.
Proof.
  intros sep s H. pose proof (fun x => within_piece sep s x H) as W. revert W. generalize (split sep s). intros l W.
  destruct l as [|x l]; [apply within_nil|]. apply W. clear W. revert x. induction l as [|y l IH]; intros x; [left; auto|]. right. apply (IH y).
Qed.
Lemma within_rest : forall sep s, sep <> [] -> within (join sep (tl (split sep s))) s.
Proof.
  intros sep s H. destruct (split_parts sep s H) as [(-> & _)|(a & b & E & ->)]; [apply within_nil|]. cbn [tl]. rewrite join_split by auto. rewrite E.
  rewrite app_assoc. apply within_r.
Qed.
Lemma within_split2 : forall sep s x, In x (split2 sep s) -> within x s.
Proof.
  intros sep s x I. destruct (split2_parts sep s) as [E|(a & b & -> & E)]; rewrite E in I; cbn [In] in I.
  - destruct I as [<-|[]]. apply within_refl.
  - destruct I as [<-|[<-|[]]]; [apply within_l|]. rewrite app_assoc. apply within_r.
Qed.
Lemma within_hd2 : forall sep s, within (hd [] (split2 sep s)) s.
Proof. intros sep s. pose proof (within_split2 sep s) as W. destruct (split2 sep s) as [|x l]; [apply within_nil|]. apply W. left. auto. Qed.

Lemma within_join : forall sep l, neutral sep -> within (join sep l) (concat l).
Proof. intros sep l [A B]. unfold less, special in *. split; unfold less, special; rewrite count_join; auto. Qed.

Lemma neutral_list : forall k, forallb (fun c => negb (is_less c) && negb (is_special c)) k = true -> neutral k.
Proof.
  intros k H. rewrite forallb_forall in H. split; apply count_none; intros c I; specialize (H c I); apply andb_true_iff in H as [A B]; apply negb_true_iff; auto.
Qed.
Lemma neutral_nl : neutral nl.
Proof. apply neutral_list. reflexivity. Qed.
Lemma neutral_app : forall a b, neutral a -> neutral b -> neutral (a ++ b).
Proof. unfold neutral, less, special. intros a b [] []. rewrite !count_app. lia. Qed.

Lemma digit_neutral : forall c, is_digit c = true -> is_less c = false /\ is_special c = false.
Proof. intros [[] [] [] [] [] [] [] []]; vm_compute; auto; discriminate. Qed.
Lemma itoa_neutral : forall n, neutral (itoa n).
Proof.
  intros n. pose proof (itoa_digits n) as F. rewrite Forall_forall in F. split; apply count_none; intros c I; apply digit_neutral; auto.
Qed.
Lemma key_neutral : forall ty n, neutral ty -> neutral (token_key ty n).
Proof.
  intros ty n H. unfold token_key. apply neutral_app; [apply neutral_list; reflexivity|]. apply neutral_app; [exact H|].
  apply neutral_app; [apply neutral_list; reflexivity|]. apply neutral_app; [apply itoa_neutral|apply neutral_list; reflexivity].
Qed.

(** ** Smaller texts *)

(** Less markup, counting tags first *)
Definition below (x y : str) : Prop := less x < less y \/ (less x = less y /\ special x < special y).
Definition lower (x y : str) : Prop :=
  less x < less y \/ (less x = less y /\ (special x < special y \/ (special x = special y /\
    (unclosed x < unclosed y \/ (unclosed x = unclosed y /\ empty_lines x < empty_lines y))))).
Definition shrinks (x y : str) : Prop := x = y \/ lower x y.

Lemma lower_ind : forall P : str -> Prop, (forall s, (forall s', lower s' s -> P s') -> P s) -> forall s, P s.
Proof.
  intros P H. cut (forall a s, less s = a -> P s); [intros K s; apply (K (less s)); auto|].
  induction a as [a IHa] using lt_wf_ind. cut (forall b s, less s = a -> special s = b -> P s); [intros K s A; apply (K (special s)); auto|].
  induction b as [b IHb] using lt_wf_ind. cut (forall c s, less s = a -> special s = b -> unclosed s = c -> P s); [intros K s A B; apply (K (unclosed s)); auto|].
  induction c as [c IHc] using lt_wf_ind. cut (forall d s, less s = a -> special s = b -> unclosed s = c -> empty_lines s = d -> P s);
    [intros K s A B C; apply (K (empty_lines s)); auto|].
  induction d as [d IHd] using lt_wf_ind. intros s A B C D. apply H. intros s' L. unfold lower in L.
  destruct L as [L|(L1 & [L|(L2 & [L|(L3 & L)])])].
  - apply (IHa (less s')); auto; lia.
  - apply (IHb (special s')); auto; lia.
  - apply (IHc (unclosed s')); auto; lia.
  - apply (IHd (empty_lines s')); auto; lia.
Qed.

Lemma lower_trans : forall x y z, lower x y -> lower y z -> lower x z.
Proof. unfold lower. intros. lia. Qed.
Lemma shrinks_refl : forall x, shrinks x x.
Proof. left. auto. Qed.
Lemma shrinks_trans : forall x y z, shrinks x y -> shrinks y z -> shrinks x z.
Proof. intros x y z [->|H] [->|K]; auto; try (left; reflexivity); right; auto. eapply lower_trans; eauto. Qed.
Lemma below_lower : forall x y, below x y -> lower x y.
Proof. unfold below, lower. intros. lia. Qed.
Lemma shrinks_below : forall x y z, shrinks y z -> below x y -> below x z.
Proof. intros x y z [->|H] K; auto. unfold below, lower in *. lia. Qed.
Lemma within_below : forall x y, within x y -> special x < special y -> below x y.
Proof. unfold within, below. intros. lia. Qed.
Lemma less_shrinks : forall x y, less x < less y -> shrinks x y.
Proof. intros. right. left. auto. Qed.
Lemma within_shrinks : forall x y, within x y -> special x < special y -> shrinks x y.
Proof. intros. right. apply below_lower. apply within_below; auto. Qed.
Lemma shrinks_special : forall x y, shrinks x y -> less x < less y \/ (less x = less y /\ special x <= special y).
Proof. intros x y [->|H]; unfold lower in *; lia. Qed.

(** Nothing has changed and there was nothing to do, or the text is smaller. *)
Definition settled (P : str -> Prop) (r s : str) : Prop := (r = s /\ P s) \/ lower r s.

Lemma lower_irrefl : forall x, ~ lower x x.
Proof. intros x H. unfold lower in H. lia. Qed.
Lemma settled_shrinks : forall P r s, settled P r s -> shrinks r s.
Proof. intros P r s [(E & _)|L]; [left|right]; auto. Qed.
Lemma settled_same : forall P s, settled P s s -> P s.
Proof. intros P s [(_ & H)|L]; auto. destruct (lower_irrefl s L). Qed.
Lemma shrinks_antisym : forall x y, shrinks x y -> shrinks y x -> x = y.
Proof. intros x y [E|L] [E'|L']; auto. exfalso. apply (lower_irrefl x). exact (lower_trans _ _ _ L L'). Qed.
