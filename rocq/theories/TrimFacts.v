(** * More facts about trimming *)

From Coq Require Import Ascii String.
From Coq Require Import List Arith Bool Lia.
From Verif Require Import GoStr GoStrFacts.
Import ListNotations.
Local Open Scope list_scope.

Lemma strip_made_of : forall pats, (forall p, In p pats -> p <> []) ->
  (forall p q, In p pats -> In q pats -> has_prefix p q = true -> p = q) ->
  forall l s, made_of pats l -> strip_go pats (l ++ s) 0 = strip_go pats s 0.
Proof.
  intros pats NE PF l s H. induction H as [|p l I H IH]; auto. rewrite <- app_assoc.
  assert (L : lead_len pats (p ++ l ++ s) = length p).
  { destruct (lead_len pats (p ++ l ++ s)) as [|k] eqn:E.
    - pose proof (lead_len_none pats _ NE E p I) as K. rewrite has_prefix_app in K. discriminate.
    - destruct (lead_len_some _ _ _ E) as (q & Iq & Pq & Lq). apply has_prefix_spec in Pq as (u & Eu).
      assert (p = q) by (destruct (app_same_prefix p q _ _ Eu) as [F|F]; [|symmetry]; apply PF; auto). subst. auto. }
  destruct p as [|c p]; [exfalso; eapply NE; eauto|]. cbn [app strip_go]. cbn [app] in L. rewrite L. cbn [length].
  rewrite strip_go_skip. rewrite skipn_app, skipn_all, Nat.sub_diag. cbn [app skipn]. exact IH.
Qed.

Lemma rev_space_runes_prefix_free : forall p q, In p (map (@rev ascii) space_runes) -> In q (map (@rev ascii) space_runes) -> has_prefix p q = true -> p = q.
Proof.
  assert (H : forallb (fun p => forallb (fun q => negb (has_prefix p q) || str_eqb p q) (map (@rev ascii) space_runes)) (map (@rev ascii) space_runes) = true)
    by (vm_compute; reflexivity).
  rewrite forallb_forall in H. intros p q Hp Hq E. specialize (H _ Hp). rewrite forallb_forall in H. specialize (H _ Hq).
  rewrite E in H; simpl in H. apply str_eqb_eq; auto.
Qed.

Lemma trim_left_blank : forall l s, blank l -> trim_left (l ++ s) = trim_left s.
Proof. intros l s H. apply strip_made_of; auto using space_runes_nonempty, space_runes_prefix_free. Qed.

Lemma made_of_rev' : forall pats s, made_of pats s -> made_of (map (@rev ascii) pats) (rev s).
Proof.
  intros pats s H. induction H as [|p s I H IH]; [constructor|]. rewrite rev_app_distr. apply made_of_app; auto.
  rewrite <- (app_nil_r (rev p)). constructor; [apply in_map; auto|constructor].
Qed.

Lemma trim_right_blank : forall s r, blank r -> trim_right (s ++ r) = trim_right s.
Proof.
  intros s r H. unfold trim_right. rewrite rev_app_distr. f_equal.
  apply strip_made_of; auto using rev_space_runes_nonempty, rev_space_runes_prefix_free. apply made_of_rev'. auto.
Qed.

(** Characters that are no part of white space *)
Definition solid (c : ascii) : bool := forallb (fun p => negb (existsb (Ascii.eqb c) p)) space_runes.

Lemma solid_In : forall c p, solid c = true -> In p space_runes -> ~ In c p.
Proof.
  intros c p S I J. unfold solid in S. rewrite forallb_forall in S. specialize (S p I). apply negb_true_iff in S.
  assert (E : existsb (Ascii.eqb c) p = true) by (apply existsb_exists; exists c; split; auto; apply Ascii.eqb_refl). congruence.
Qed.

Lemma solid_first : forall c s p, solid c = true -> In p space_runes -> has_prefix p (c :: s) = false.
Proof.
  intros c s p S I. destruct p as [|x p]; [exfalso; eapply space_runes_nonempty; eauto|]. apply has_prefix_neq. intros ->.
  eapply (solid_In c); eauto. left. auto.
Qed.

Lemma solid_last : forall c s p, solid c = true -> In p space_runes -> has_suffix p (s ++ [c]) = false.
Proof.
  intros c s p S I. unfold has_suffix. rewrite rev_app_distr. cbn [rev app]. destruct (rev p) as [|x q] eqn:E.
  - apply (f_equal (@rev ascii)) in E. rewrite rev_involutive in E. exfalso. eapply space_runes_nonempty; eauto.
  - apply has_prefix_neq. intros ->. eapply (solid_In c); eauto. apply in_rev. rewrite E. left. auto.
Qed.

(** The first and the last character of the text are no white space. *)
Definition solid_ends (s : str) : Prop := exists c, solid c = true /\ (exists x, s = c :: x) /\ exists d x, solid d = true /\ s = x ++ [d].

Lemma trim_solid : forall s, solid_ends s -> trim_space s = s.
Proof.
  intros s (c & C & (x & E) & d & y & D & E'). apply trim_space_fix; intros p I.
  - rewrite E. apply solid_first; auto.
  - rewrite E'. apply solid_last; auto.
Qed.

Lemma trim_core : forall l s r, blank l -> blank r -> solid_ends s -> trim_space (l ++ s ++ r) = s.
Proof.
  intros l s r L R S. unfold trim_space. rewrite trim_left_blank; auto. 
  assert (E : trim_left (s ++ r) = s ++ r).
  { destruct S as (c & C & (x & E) & _). apply trim_left_fix. intros p I. rewrite E. apply solid_first; auto. }
  rewrite E, trim_right_blank; auto. apply trim_right_fix. intros p I. destruct S as (_ & _ & _ & d & y & D & E'). rewrite E'. apply solid_last; auto.
Qed.

Lemma solid_ends_single : forall c, solid c = true -> solid_ends [c].
Proof. intros c C. exists c. split; auto. split; [exists []; auto|]. exists c, []. auto. Qed.
