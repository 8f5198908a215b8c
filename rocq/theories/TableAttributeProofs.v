(** * Proofs about the attributes of cells *)

From Coq Require Import Ascii String.
From Coq Require Import List Arith Bool Lia.
From Verif Require Import GoStr GoStrFacts TrimFacts TokenModel ParagraphModel TableModel PassSpec TableSpec.
Import ListNotations.
Local Open Scope list_scope.

Lemma trim_space_left : forall s, trim_space (trim_left s) = trim_space s.
Proof. intros s. unfold trim_space. destruct (trim_left_spec s) as (l & _ & _ & H). rewrite (trim_left_fix (trim_left s)); auto. Qed.

Lemma absent_tail : forall p c s, contains p (c :: s) = false -> has_prefix p (c :: s) = false /\ contains p s = false.
Proof.
  intros p c s H. split; [apply has_prefix_false; intros t E; eapply (proj1 (contains_false _ _) H []); exact E|].
  apply (contains_app_false p [c] s H).
Qed.

Lemma span_whole : forall f a b, Forall (fun c => f c = true) a -> (forall c b', b = c :: b' -> f c = false) -> span f (a ++ b) = (a, b).
Proof.
  intros f a b H N. induction H as [|c a C H IH].
  - destruct b as [|c b']; auto. cbn. rewrite (N c b'); auto.
  - cbn [app span]. rewrite C, IH. auto.
Qed.

(** What follows an attribute is the end or a space. *)
Definition apart (x : str) : Prop := x = [] \/ exists y, x = " "%char :: y.

Lemma prefix_apart : forall p a x, ~ In " "%char p -> apart x -> has_prefix p (a ++ x) = true -> has_prefix p a = true.
Proof.
  intros p a x N A H. apply has_prefix_spec in H as (z & H). apply has_prefix_spec. revert a H. induction p as [|c p IH]; intros a H; [exists a; auto|].
  destruct a as [|d a]; cbn [app] in H.
  - destruct A as [->|(y & ->)]; [discriminate|]. exfalso. apply N. left. injection H as H _. congruence.
  - injection H as -> H. destruct (IH ltac:(intros I; apply N; right; auto) a H) as (y & ->). exists y. reflexivity.
Qed.

Lemma span_absent : forall s, has_prefix !"colspan=" s = false -> has_prefix !"rowspan=" s = false -> span_match s = None.
Proof. intros s A B. unfold span_match. rewrite A, B. reflexivity. Qed.

Lemma spans_none : forall s x, no_span s -> apart x -> span_matches (s ++ x) 0 = span_matches x 0.
Proof.
  intros s x [A B] X. induction s as [|c s IH]; auto. cbn [app span_matches]. change (c :: s ++ x) with ((c :: s) ++ x).
  apply absent_tail in A as [A A']. apply absent_tail in B as [B B'].
  rewrite span_absent; [apply IH; auto| |].
  - destruct (has_prefix !"colspan=" ((c :: s) ++ x)) eqn:E; auto. apply prefix_apart in E; auto; [congruence|cbn; intuition discriminate].
  - destruct (has_prefix !"rowspan=" ((c :: s) ++ x)) eqn:E; auto. apply prefix_apart in E; auto; [congruence|cbn; intuition discriminate].
Qed.

Lemma spans_skip : forall s x k, span_matches (s ++ x) (length s + k) = span_matches x k.
Proof. induction s as [|c s IH]; intros x k; [auto|]. cbn [app length plus span_matches]. auto. Qed.

Lemma digit_ok : forall c, In c !"0123456789" -> is_digit c = true.
Proof. intros c I. cbn in I. repeat (destruct I as [<-|I]; [reflexivity|]). destruct I. Qed.

Lemma span_found : forall cs q n x, n <> [] -> Forall (fun c => In c !"0123456789") n -> apart x -> span_match (span_source cs q n ++ x) = Some (span_source cs q n).
Proof.
  intros cs q n x N F X. assert (D : Forall (fun c => is_digit c = true) n) by (eapply Forall_impl; [|exact F]; apply digit_ok).
  assert (G : forall w tail, has_prefix !"colspan=" (w ++ tail) || has_prefix !"rowspan=" (w ++ tail) = true -> length w = 8 ->
    span_match (w ++ tail) = let (q1, s1) := optional_quote tail in let (digits, s2) := span is_digit s1 in
      match digits with [] => None | _ => let (q2, _) := optional_quote s2 in Some (w ++ q1 ++ digits ++ q2) end).
  { intros w tail H L. unfold span_match. rewrite H, skipn_app, L, Nat.sub_diag, skipn_O. rewrite (skipn_all2 w) by lia. rewrite firstn_app, L, Nat.sub_diag, firstn_O, app_nil_r, (firstn_all2 w) by lia. reflexivity. }
  unfold span_source. rewrite <- app_assoc. rewrite G by (destruct cs; reflexivity). clear G. destruct q.
  - cbn [app dq optional_quote]. rewrite <- app_assoc. unfold dq_char at 1. rewrite Ascii.eqb_refl. rewrite span_whole; auto; [|intros c b E; injection E as <- _; reflexivity].
    destruct n as [|d n]; [contradiction|]. reflexivity.
  - destruct n as [|d n]; [contradiction|]. assert (Q : optional_quote ((d :: n) ++ x) = ([], (d :: n) ++ x)).
    { cbn [app optional_quote]. destruct (Ascii.eqb d dq_char) eqn:E; auto. apply Ascii.eqb_eq in E. subst. inversion D. discriminate. }
    rewrite Q. rewrite span_whole; auto.
    + assert (Q2 : fst (optional_quote x) = []) by (destruct X as [->|(y & ->)]; reflexivity). destruct (optional_quote x) as [q2 s2]. cbn [fst] in Q2. subst q2. rewrite (app_nil_r (d :: n)). reflexivity.
    + intros c b E. destruct X as [->|(y & ->)]; [discriminate|]. injection E as <- _. reflexivity.
Qed.

Lemma spans_found : forall cs q n x, n <> [] -> Forall (fun c => In c !"0123456789") n -> apart x -> span_matches (span_source cs q n ++ x) 0 = span_source cs q n :: span_matches x 0.
Proof.
  intros cs q n x N F X. pose proof (span_found cs q n x N F X) as E. destruct (span_source cs q n) as [|c m] eqn:S; [destruct cs; discriminate|].
  cbn [app span_matches] in *. rewrite E. f_equal. cbn [length pred]. rewrite <- (Nat.add_0_r (length m)). apply spans_skip.
Qed.

(** Alignment *)
Lemma align_absent : forall s, has_prefix !"text-align:" s = false -> align_match s = None.
Proof. intros s A. unfold align_match. rewrite A. reflexivity. Qed.

Lemma align_none : forall s x, contains !"text-align:" s = false -> apart x -> find_align (s ++ x) = find_align x.
Proof.
  intros s x A X. induction s as [|c s IH]; auto. cbn [app find_align]. change (c :: s ++ x) with ((c :: s) ++ x). apply absent_tail in A as [A A'].
  rewrite align_absent; auto. destruct (has_prefix !"text-align:" ((c :: s) ++ x)) eqn:E; auto. apply prefix_apart in E; auto; [congruence|cbn; intuition discriminate].
Qed.

Lemma align_border : forall b y, b <> [] -> has_prefix !"text-align:" (b ++ !"text-align:" ++ y) = true -> has_prefix !"text-align:" b = true.
Proof.
  intros b y N H. apply has_prefix_spec in H as (z & H). destruct b as [|c0 b]; [contradiction|]. injection H as -> H.
  do 10 (destruct b as [|? b]; [cbn in H; discriminate|injection H as -> H]). reflexivity.
Qed.

Lemma align_ends : forall a x, one_line a -> no_char ";" a -> align_end (a ++ !";" ++ x) = Some (a ++ !";").
Proof.
  intros a x O N. induction a as [|c a IH]; [reflexivity|]. cbn [app align_end]. destruct (Ascii.eqb_spec c ";"); [exfalso; apply N; left; auto|]. destruct (Ascii.eqb_spec c nl_char); [exfalso; apply O; left; auto|].
  change (";"%char :: x) with (!";" ++ x). rewrite IH; [reflexivity|intros I; apply O; right; auto|intros I; apply N; right; auto].
Qed.

Lemma align_found : forall b a x, contains !"text-align:" b = false -> a <> [] -> one_line a -> no_char ";" a -> find_align (b ++ !"text-align:" ++ a ++ !";" ++ x) = Some (!"text-align:" ++ a ++ !";").
Proof.
  intros b a x B N O S. induction b as [|c b IH].
  - cbn [app]. assert (E : align_match (!"text-align:" ++ a ++ !";" ++ x) = Some (!"text-align:" ++ a ++ !";")).
    { unfold align_match. change (skipn 11 (!"text-align:" ++ a ++ !";" ++ x)) with (a ++ !";" ++ x). change (has_prefix !"text-align:" (!"text-align:" ++ a ++ !";" ++ x)) with true. cbv iota.
      destruct a as [|c a]; [contradiction|]. cbn [app]. destruct (Ascii.eqb_spec c nl_char); [exfalso; apply O; left; auto|]. change (";"%char :: x) with (!";" ++ x).
      rewrite align_ends; [reflexivity|intros I; apply O; right; auto|intros I; apply S; right; auto]. }
    cbn [app find_align] in *. rewrite E. reflexivity.
  - apply absent_tail in B as [B B']. cbn [app find_align]. change (c :: b ++ !"text-align:" ++ a ++ !";" ++ x) with ((c :: b) ++ !"text-align:" ++ a ++ !";" ++ x).
    rewrite align_absent; [apply IH; auto|]. destruct (has_prefix !"text-align:" ((c :: b) ++ !"text-align:" ++ a ++ !";" ++ x)) eqn:E; auto. apply align_border in E; [congruence|discriminate].
Qed.

Lemma span_no_align : forall cs q n, Forall (fun c => In c !"0123456789") n -> contains !"text-align:" (span_source cs q n) = false.
Proof.
  intros cs q n F. apply contains_false. intros a b E. assert (I : In "t"%char (span_source cs q n)) by (rewrite E, !in_app_iff; right; left; cbn; auto).
  assert (Nn : ~ In "t"%char n) by (intros J; rewrite Forall_forall in F; apply F in J; cbn in J; intuition discriminate).
  unfold span_source in I. destruct cs, q; rewrite ?in_app_iff in I; cbn [In dq] in I; repeat destruct I as [I|I]; try (discriminate I); auto; cbn in I; intuition discriminate.
Qed.

Lemma rest_apart : forall l, apart (concat (map (fun a => !" " ++ attribute_source a) l)).
Proof. intros [|a l]; [left; auto|right]. cbn [map concat app]. eauto. Qed.

Lemma entry_rest : forall l, Forall attribute_ok l -> let x := concat (map (fun a => !" " ++ attribute_source a) l) in
  span_matches x 0 = kept_spans l /\ (match find_align x with Some m => [!"style=" ++ dq ++ m ++ dq] | None => [] end) = kept_alignment l.
Proof.
  intros l F. induction F as [|a l A F [IH1 IH2]]; [split; reflexivity|]. cbv zeta. cbn [map concat]. set (x := concat (map (fun a => !" " ++ attribute_source a) l)) in *.
  pose proof (rest_apart l) as X. fold x in X. rewrite <- app_assoc.
  assert (S1 : forall z, span_matches (!" " ++ z) 0 = span_matches z 0) by (intros z; reflexivity). assert (S2 : forall z, find_align (!" " ++ z) = find_align z) by (intros z; reflexivity). rewrite S1, S2. clear S1 S2.
  destruct a as [cs q n|b al be|s]; cbn [attribute_source attribute_ok] in *.
  - destruct A as [N D]. rewrite spans_found, align_none; auto using span_no_align. split; [unfold kept_spans in *; cbn [flat_map app]; rewrite IH1; reflexivity|exact IH2].
  - destruct A as (Sp & B & N & O & S). rewrite spans_none; auto. split; [exact IH1|]. rewrite <- !app_assoc. rewrite align_found; auto. cbn [kept_alignment]. rewrite <- !app_assoc. reflexivity.
  - destruct A as [Sp B]. rewrite spans_none, align_none; auto.
Qed.

Lemma attributes_found : forall a, attributes_parsed (Some a) (entry_attributes (trim_space a)).
Proof.
  intros a l F E. rewrite E. destruct (entry_rest l F) as [E1 E2]. unfold entry_attributes. rewrite <- E1, <- E2.
  assert (J : match l with [] => True | _ => concat (map (fun a => !" " ++ attribute_source a) l) = !" " ++ join !" " (map attribute_source l) end).
  { clear. induction l as [|a l IH]; auto. cbn [map concat]. destruct l as [|b l]; [cbn [map concat join]; rewrite app_nil_r; reflexivity|]. rewrite IH. cbn [map join]. rewrite <- app_assoc. reflexivity. }
  destruct l; [reflexivity|]. rewrite J. reflexivity.
Qed.
