(** * Railway tables *)

From Coq Require Import Ascii String.
From Coq Require Import List Arith Bool Lia.
From Verif Require Import GoStr GoStrFacts TextFacts BracketModel CleanerModel CleanerTemplateProofs RailwaySpec.
Import ListNotations.
Local Open Scope list_scope.

Lemma prefix_stop : forall p x c y, ~ In c p -> has_prefix p (x ++ c :: y) = has_prefix p x.
Proof.
  induction p as [|d p IH]; intros [|e x] c y N; auto; cbn [app has_prefix].
  - destruct (Ascii.eqb_spec d c) as [->|]; auto. destruct N. left. auto.
  - rewrite IH; auto. intros I. apply N. right. auto.
Qed.

Lemma bar_not_in_head : ~ In "|"%char table_head.
Proof. vm_compute. intuition discriminate. Qed.

Lemma contains_tail : forall p c s, contains p (c :: s) = false -> has_prefix p (c :: s) = false /\ contains p s = false.
Proof.
  intros p c s H. split; [apply has_prefix_false; intros t E; eapply (proj1 (contains_false _ _) H []); exact E|].
  apply (contains_app_false p [c] s H).
Qed.

Lemma contains_cons : forall p c s, has_prefix p (c :: s) = false -> contains p s = false -> p <> [] -> contains p (c :: s) = false.
Proof.
  intros p c s H C N. apply contains_false. intros [|x a] b E; cbn [app] in E.
  - apply (proj1 (has_prefix_false _ _) H b). exact E.
  - injection E as _ E. apply (proj1 (contains_false _ _) C a b E).
Qed.

Lemma contains_factor : forall p a b c, contains p (a ++ b ++ c) = false -> contains p b = false.
Proof. intros p a b c H. apply contains_app_false in H as [_ H]. apply contains_app_false in H. apply H. Qed.

(** The end of a table without other tables *)
Lemma find_end : forall b a i, contains table_end b = false -> contains table_head b = false ->
  findClose_go false table_head table_end (b ++ table_end ++ a) 0 0 i = Some (i + length b).
Proof.
  induction b as [|c b IH]; intros a i E H.
  - cbn [app length]. rewrite Nat.add_0_r. reflexivity.
  - cbn [app findClose_go length]. apply contains_tail in E as [E1 E2]. apply contains_tail in H as [H1 H2].
    unfold at_token. replace (has_prefix table_head (c :: b ++ table_end ++ a)) with false by (rewrite <- H1; symmetry; apply (prefix_stop table_head (c :: b) "|" ("}"%char :: a) bar_not_in_head)).
    rewrite andb_false_r. replace (has_prefix table_end (c :: b ++ table_end ++ a)) with false; [rewrite IH by auto; f_equal; lia|].
    unfold table_end in *. cbn [has_prefix] in E1 |- *. destruct (Ascii.eqb "|" c); auto. destruct b as [|d b]; [reflexivity|exact (eq_sym E1)].
Qed.

(** The loop works from the last table to the first. *)
Inductive strips : str -> str -> Prop :=
| strips_nil : strips [] []
| strips_char : forall c s r, has_prefix table_head (c :: s) = false -> strips s r -> strips (c :: s) (c :: r)
| strips_table : forall s b a, strips s (b ++ table_end ++ a) -> contains table_end b = false -> contains table_head (b ++ a) = false ->
    strips (table_head ++ s) (b ++ a).

Lemma strips_length : forall s r, strips s r -> length r <= length s.
Proof. induction 1; cbn [length]; auto; [lia|]. rewrite !app_length in *. cbn in IHstrips. cbn. lia. Qed.

Lemma hack_strips : forall fuel s r A, strips s r -> length s < fuel -> hackGermanRailwayTemplates fuel (A ++ s) (length A) = Ok (A ++ r).
Proof.
  induction fuel as [|fuel IH]; intros s r A H L; [lia|]. cbn [hackGermanRailwayTemplates]. destruct H as [|c s r P H|s b a H E N].
  - rewrite app_nil_r. destruct (Nat.ltb_spec (length A + length bs_start) (length A)); [lia|]. auto.
  - destruct (Nat.ltb_spec (length A + length bs_start) (length (A ++ c :: s))) as [B|B].
    + rewrite skipn_app, skipn_all, Nat.sub_diag. cbn [app skipn]. change bs_start with table_head. rewrite P.
      cbn [length] in L. specialize (IH s r (A ++ [c]) H ltac:(lia)). rewrite <- !app_assoc in IH. rewrite app_length, Nat.add_1_r in IH. exact IH.
    + assert (X : forall s r, strips s r -> length s < length table_head -> r = s).
      { induction 1 as [|c' s' r' P' H' IH'|s' b' a' H' IH' E' N']; intros B'; auto; [cbn [length] in B'; rewrite IH' by lia; auto|rewrite app_length in B'; lia]. }
      rewrite (X s r H); auto. rewrite app_length in B. cbn [length] in B. change (length table_head) with (length bs_start). lia.
  - destruct (Nat.ltb_spec (length A + length bs_start) (length (A ++ table_head ++ s))) as [B|B].
    + rewrite skipn_app, skipn_all, Nat.sub_diag. cbn [app skipn]. change bs_start with table_head. rewrite has_prefix_app.
      rewrite app_assoc, <- (app_length A table_head). rewrite (IH s _ (A ++ table_head) H) by (rewrite app_length in L; cbn in L; lia). cbn [bind].
      unfold FindCorrespondingCloseToken, findCorrespondingCloseToken. rewrite skipn_app, skipn_all, Nat.sub_diag. cbn [app skipn].
      rewrite find_end; auto; [|apply (contains_factor table_head [] b a); exact N].
      replace (firstn (length (A ++ table_head) + length b) ((A ++ table_head) ++ b ++ table_end ++ a)) with ((A ++ table_head) ++ b)
        by (rewrite <- app_length, app_assoc, firstn_app, firstn_all, Nat.sub_diag; cbn [firstn]; rewrite app_nil_r; auto).
      replace (skipn (length (A ++ table_head) + length b + 2) ((A ++ table_head) ++ b ++ table_end ++ a)) with a
        by (rewrite <- app_length; change 2 with (length table_end); rewrite <- app_length; rewrite !app_assoc, skipn_app, skipn_all, Nat.sub_diag; auto).
      replace (firstn (length A) (((A ++ table_head) ++ b) ++ a)) with A by (rewrite <- !app_assoc, firstn_app, firstn_all, Nat.sub_diag; cbn [firstn]; rewrite app_nil_r; auto).
      replace (skipn (length (A ++ table_head)) (((A ++ table_head) ++ b) ++ a)) with (b ++ a) by (rewrite <- !app_assoc, (app_assoc A), skipn_app, skipn_all, Nat.sub_diag; auto).
      assert (Z : length (b ++ a) < fuel). { apply strips_length in H. rewrite !app_length in *. cbn in H, L. lia. }
      assert (X : strips (tl (b ++ a)) (tl (b ++ a))).
      { assert (Y : forall u, contains table_head u = false -> strips u u).
        { induction u as [|x u IHu]; intros Cu; constructor; apply contains_tail in Cu as [? ?]; auto. }
        apply Y. destruct (b ++ a) as [|x u]; auto. apply contains_tail in N as [_ N]. exact N. }
      destruct (b ++ a) as [|x u] eqn:Q.
      * rewrite app_nil_r. destruct fuel; [cbn in Z; lia|]. cbn [hackGermanRailwayTemplates]. destruct (Nat.ltb_spec (S (length A) + length bs_start) (length A)); [lia|]. auto.
      * cbn [tl] in X. specialize (IH u u (A ++ [x]) X ltac:(cbn in Z; lia)). rewrite <- !app_assoc in IH. rewrite app_length, Nat.add_1_r in IH. exact IH.
    + exfalso. apply strips_length in H. rewrite !app_length in *. change (length bs_start) with 12 in B. change (length table_head) with 12 in B. cbn in H. lia.
Qed.

Lemma railway_strips : forall s r, railway s r -> forall rest rest', strips rest rest' -> (rest = [] \/ exists y, rest = "|"%char :: y) -> contains table_head (r ++ rest') = false -> strips (s ++ rest) (r ++ rest').
Proof.
  induction 1 as [|c s r P H IH|inner inner' s r H IH E H2 IH2]; intros rest rest' R B N; auto.
  - cbn [app] in N |- *. apply contains_tail in N as [_ N]. constructor; auto. change (c :: s ++ rest) with ((c :: s) ++ rest).
    destruct B as [->|(y & ->)]; [rewrite app_nil_r; auto|]. rewrite prefix_stop; auto. apply bar_not_in_head.
  - rewrite <- app_assoc in N. replace ((table_head ++ inner ++ table_end ++ s) ++ rest) with (table_head ++ inner ++ table_end ++ s ++ rest) by (rewrite <- !app_assoc; reflexivity).
    rewrite <- app_assoc. assert (N2 : contains table_head (r ++ rest') = false) by (apply (contains_factor table_head inner' (r ++ rest') []); rewrite app_nil_r; exact N).
    apply (strips_table _ inner' (r ++ rest')); auto. apply (IH (table_end ++ s ++ rest) (table_end ++ r ++ rest')); [|right; eexists; reflexivity|].
    + specialize (IH2 rest rest' R B N2). constructor; [reflexivity|]. constructor; [reflexivity|]. exact IH2.
    + assert (Z : forall u, contains table_head u = false -> forall v, contains table_head v = false -> contains table_head (u ++ table_end ++ v) = false).
      { intros u. induction u as [|x u IHu]; intros Cu v Cv; [repeat (apply contains_cons; [reflexivity| |discriminate]); auto|]. apply contains_tail in Cu as [C1 C2].
        apply contains_cons; [| |discriminate]; [|apply IHu; auto]. rewrite <- C1. apply (prefix_stop table_head (x :: u) "|" ("}"%char :: v) bar_not_in_head). }
      apply Z; auto. apply (contains_factor table_head [] inner' (r ++ rest')). exact N.
Qed.

Lemma hack_railway : forall fuel s r, railway s r -> contains table_head r = false -> length s < fuel -> hackGermanRailwayTemplates fuel s 0 = Ok r.
Proof.
  intros fuel s r H N L. apply (hack_strips fuel s r []); auto. pose proof (railway_strips s r H [] []) as X. rewrite !app_nil_r in X. apply X; auto. constructor.
Qed.

(** ** Tables without end *)

Lemma find_no_end : forall s k d i, contains table_end s = false -> findClose_go false table_head table_end s k d i = None.
Proof.
  induction s as [|c s IH]; intros k d i E; auto. cbn [findClose_go]. apply contains_tail in E as [E1 E2]. destruct k; auto. unfold at_token. rewrite E1.
  destruct (tokens_differ _ _ _ && _); auto.
Qed.

Lemma hack_same : forall fuel A s, contains table_end s = false -> length s < fuel ->
  hackGermanRailwayTemplates fuel (A ++ s) (length A) = Err \/ hackGermanRailwayTemplates fuel (A ++ s) (length A) = Ok (A ++ s) /\ ~ exists a c b, s = a ++ table_head ++ c :: b.
Proof.
  induction fuel as [|fuel IH]; intros A s E L; [lia|]. cbn [hackGermanRailwayTemplates].
  destruct (Nat.ltb_spec (length A + length bs_start) (length (A ++ s))) as [B|B].
  - rewrite skipn_app, skipn_all, Nat.sub_diag. cbn [app skipn]. destruct (has_prefix bs_start s) eqn:P.
    + left. apply has_prefix_spec in P as (s' & ->). change bs_start with table_head in *.
      assert (E' : contains table_end s' = false) by (apply contains_app_false in E; apply E).
      rewrite app_assoc, <- (app_length A table_head). destruct (IH (A ++ table_head) s' E') as [X|[X _]]; [rewrite app_length in L; cbn in L; lia|rewrite X; reflexivity|].
      rewrite X. cbn [bind]. unfold FindCorrespondingCloseToken, findCorrespondingCloseToken. rewrite skipn_app, skipn_all, Nat.sub_diag. cbn [app skipn]. rewrite find_no_end; auto.
    + destruct s as [|x s]; [rewrite app_nil_r in B; lia|]. destruct (contains_tail _ _ _ E) as [_ E'].
      specialize (IH (A ++ [x]) s E'). rewrite <- app_assoc, app_length, Nat.add_1_r in IH. destruct IH as [X|[X N]]; [cbn in L; lia|left; exact X|right]. split; [exact X|].
      intros (a & c & b & D). destruct a as [|y a]; [cbn [app] in D; change bs_start with table_head in P; rewrite D in P; change (has_prefix table_head (table_head ++ c :: b) = false) in P; rewrite has_prefix_app in P; discriminate P|].
      apply N. exists a, c, b. cbn [app] in D. congruence.
  - right. split; auto. intros (a & c & b & ->). rewrite !app_length in B. cbn [length] in B. change (length table_head) with (length bs_start) in B. lia.
Qed.

Lemma hack_no_end : forall fuel s a c b, contains table_end s = false -> s = a ++ table_head ++ c :: b -> length s < fuel -> hackGermanRailwayTemplates fuel s 0 = Err.
Proof. intros fuel s a c b E D L. destruct (hack_same fuel [] s E L) as [X|[_ X]]; [exact X|]. exfalso. apply X. eauto. Qed.
