(** * Proofs about the result of the evaluation of templates *)

From Coq Require Import Ascii String.
From Coq Require Import List Arith Bool Lia.
From Verif Require Import GoStr GoStrFacts TextFacts BracketModel BracketSpec BracketProofs TemplateModel TemplateSpec TemplateProofs TemplateScanProofs.
Import ListNotations.
Local Open Scope list_scope.

Section NestedInd.
  Variable P : nested -> Prop.
  Hypothesis plain : forall c, P (Plain c).
  Hypothesis braces : forall l, Forall P l -> P (Braces l).
  Fixpoint nested_rec (e : nested) : P e :=
    match e with
    | Plain c => plain c
    | Braces l => braces l ((fix go (l : list nested) : Forall P l := match l with [] => Forall_nil P | x :: l => Forall_cons x (nested_rec x) (go l) end) l)
    end.
End NestedInd.

Section Eval.
  Variable Hash : str -> str.
  Variable answer : str -> list piece.
  Hypothesis hashes : forall s, hash_value (Hash s).

  Definition ans (_ : list str) (r : str) : option str := Some (pieces_text (answer r)).
  Definition entries (reqs : list str) : list (str * str) := map (fun r => (Hash r, pieces_text (answer r))) reqs.

  Lemma evaluate_entries : forall st t, placeholders st = entries (requests st) ->
    exists st', evaluate Hash ans st t = (st', Ok (placeholder (Hash t))) /\ placeholders st' = entries (requests st').
  Proof. intros st t H. unfold evaluate, ans. eexists. split; [reflexivity|]. cbn [placeholders requests entries map]. rewrite H. auto. Qed.

  Lemma scan_entries : forall n st s st' r, placeholders st = entries (requests st) -> scan Hash ans n st s = (st', r) ->
    placeholders st' = entries (requests st').
  Proof.
    induction n as [|n IH]; intros st s st' r H E; cbn [scan] in E; [injection E as <- <-; auto|].
    destruct (2 <? length s); [|injection E as <- <-; auto].
    destruct (has_prefix ["{"%char; "{"%char] s).
    - destruct (FindCorrespondingCloseToken s 2 _ _) as [e|]; [|injection E as <- <-; auto].
      destruct (scan Hash ans n st (skipn 2 (firstn (e + 2) s))) as [st1 r1] eqn:E1. apply IH in E1; auto.
      destruct r1 as [x| | |]; try (injection E as <- <-; auto; fail).
      destruct (evaluate_entries st1 (["{"%char; "{"%char] ++ x) E1) as (st2 & E2 & H2). rewrite E2 in E.
      destruct (scan Hash ans n st2 (skipn (e + 2) s)) as [st3 r3] eqn:E3. apply IH in E3; auto. injection E as <- <-. auto.
    - destruct s as [|c s]; [injection E as <- <-; auto|].
      destruct (scan Hash ans n st s) as [st3 r3] eqn:E3. apply IH in E3; auto. injection E as <- <-. auto.
  Qed.

  Variable reqs : list str.
  Definition value (k : str) : option (list piece) := option_map answer (find (fun r => str_eqb k (Hash r)) reqs).

  Lemma value_represents : forall k, lookup k (entries reqs) = option_map pieces_text (value k).
  Proof.
    intros k. unfold value, entries. induction reqs as [|r l IH]; auto. cbn [map lookup find].
    destruct (str_eqb k (Hash r)); auto.
  Qed.

  Lemma value_hex : forall k v, value k = Some v -> Forall hexadecimal k.
  Proof.
    intros k v H. unfold value in H. destruct (find _ reqs) as [r|] eqn:F; [|discriminate]. apply find_some in F as [_ F].
    apply str_eqb_eq in F. subst k. apply hashes.
  Qed.

  Hypothesis distinct : forall p q, In p reqs -> In q reqs -> Hash p = Hash q -> p = q.

  Lemma value_in : forall r, In r reqs -> value (Hash r) = Some (answer r).
  Proof.
    intros r I. unfold value. destruct (find (fun r0 => str_eqb (Hash r) (Hash r0)) reqs) as [r'|] eqn:F.
    - apply find_some in F as [I' F]. apply str_eqb_eq in F. apply distinct in F; auto. subst r'. auto.
    - exfalso. pose proof (find_none _ _ F r I) as N. cbn beta in N. rewrite str_eqb_refl in N. discriminate.
  Qed.

  Lemma contains_app_l : forall p a b, contains p (a ++ b) = false -> contains p a = false.
  Proof. intros p a b H. rewrite contains_false in *. intros x y ->. apply (H x (y ++ b)). rewrite <- !app_assoc. auto. Qed.
  Lemma contains_app_r : forall p a b, contains p (a ++ b) = false -> contains p b = false.
  Proof. intros p a b H. rewrite contains_false in *. intros x y ->. apply (H (a ++ x) y). rewrite <- !app_assoc. auto. Qed.

  Lemma fill_filled : forall env ps,
    (forall p t, In (p, t) env -> contains mark t = false -> filled value [p] t) ->
    contains mark (concat (map (fill env) ps)) = false ->
    filled value ps (concat (map (fill env) ps)).
  Proof.
    intros env ps H. induction ps as [|p ps IH]; intros C; [constructor|]. cbn [map concat] in *.
    pose proof (contains_app_l _ _ _ C) as C1. pose proof (contains_app_r _ _ _ C) as C2. specialize (IH C2).
    change (p :: ps) with ([p] ++ ps). apply filled_app; auto. clear IH C C2.
    destruct p as [c|k]; cbn [fill] in *; [repeat constructor|].
    destruct (find _ env) as [[p t]|] eqn:F.
    - apply find_some in F as [I F]. cbn [fst] in F. destruct p as [|k']; [discriminate|]. apply str_eqb_eq in F. subst k'. auto.
    - exfalso. rewrite contains_false in C1. apply (C1 !"$$" (k ++ !"$$")). reflexivity.
  Qed.

  Lemma evaluation_filled : forall e, (forall r, In r (requests_of Hash e) -> In r reqs) -> contains mark (evaluation Hash answer e) = false ->
    filled value [with_holes Hash e] (evaluation Hash answer e).
  Proof.
    induction e as [c|l IH] using nested_rec; intros I C; [repeat constructor|].
    cbn [evaluation] in *. cbn [with_holes].
    set (env := map (fun x => (with_holes Hash x, evaluation Hash answer x)) l) in *.
    rewrite <- (app_nil_r (concat (map (fill env) (answer (request Hash l))))).
    eapply filled_hole; [|apply fill_filled; [|exact C]|constructor].
    - apply (value_in (request Hash l)). apply I. cbn [requests_of]. apply in_or_app. right. left. auto.
    - intros p t J Ct. unfold env in J. apply in_map_iff in J as (x & E & Jx). injection E as <- <-.
      rewrite Forall_forall in IH. apply IH; auto. intros r R. apply I. cbn [requests_of]. apply in_or_app. left.
      apply in_concat. exists (requests_of Hash x). split; auto. apply in_map. auto.
  Qed.

  Lemma evaluations_filled : forall tree, (forall r, In r (all_requests Hash tree) -> In r reqs) ->
    contains mark (evaluations Hash answer tree) = false -> filled value (map (with_holes Hash) tree) (evaluations Hash answer tree).
  Proof.
    induction tree as [|e tree IH]; intros I C; [constructor|]. unfold evaluations in *. cbn [map concat] in *.
    change (with_holes Hash e :: map (with_holes Hash) tree) with ([with_holes Hash e] ++ map (with_holes Hash) tree).
    unfold all_requests in *. cbn [map concat] in I. apply filled_app.
    - apply evaluation_filled; [|eapply contains_app_l; eauto]. intros r R. apply I. apply in_or_app. auto.
    - apply IH; [|eapply contains_app_r; eauto]. intros r R. apply I. apply in_or_app. auto.
  Qed.
End Eval.

Theorem templates_evaluated : forall Hash answer content l tree, (forall s, hash_value (Hash s)) ->
  (forall p q, In p (all_requests Hash tree) -> In q (all_requests Hash tree) -> Hash p = Hash q -> p = q) ->
  reading !"{{" !"}}" content l -> closed l tree -> contains !"TEMPLATE_PLACEHOLDER_" (evaluations Hash answer tree) = false ->
  exists st first, evaluateTemplates_first Hash (fun _ r => Some (pieces_text (answer r))) content = (st, Ok first) /\
    resolving_ends (placeholders st) first /\ (exists result, resolves (placeholders st) first result) /\
    forall result, resolves (placeholders st) first result -> result = evaluations Hash answer tree.
Proof.
  intros Hash answer content l tree Hh D R C M. change (fun (_ : list str) r => Some (pieces_text (answer r))) with (ans answer).
  unfold evaluateTemplates_first. destruct (replace_enough Hash (ans answer) Hh (mkTState [] []) content) as (n & Ln & ->).
  destruct (scan_closed Hash (ans answer) n (mkTState [] []) content l tree Ln R C) as (st & r & E & asked & rest & A & Rq & O).
  rewrite E. assert (P : placeholders st = entries Hash answer (requests st)) by (eapply scan_entries; [|exact E]; reflexivity).
  destruct O as [[-> ->]|[_ (b & q & _ & O)]]; [|discriminate O].
  exists st, (holes Hash tree). split; auto. rewrite app_nil_r in A. subst asked. cbn [requests] in Rq. rewrite app_nil_r in Rq.
  assert (D' : forall p q, In p (requests st) -> In q (requests st) -> Hash p = Hash q -> p = q).
  { intros p q. rewrite Rq, <- !in_rev. apply D. }
  assert (F : filled (value Hash answer (requests st)) (map (with_holes Hash) tree) (evaluations Hash answer tree)).
  { apply evaluations_filled; auto. intros r. rewrite Rq, <- in_rev. auto. }
  destruct (filled_deep _ _ _ F) as (d & Dp).
  assert (V : forall k, lookup k (placeholders st) = option_map pieces_text (value Hash answer (requests st) k)).
  { intros k. rewrite P. apply value_represents. }
  destruct (resolve_all (value Hash answer (requests st)) (placeholders st) V (value_hex Hash answer Hh _) d _ _ Dp F M) as [T1 T2].
  split; [exact T1|]. split; [apply ends_result; exact T1|exact T2].
Qed.

(** ** The result of the first part *)

Theorem first_general : forall Hash service content l, (forall s, hash_value (Hash s)) -> reading !"{{" !"}}" content l ->
  exists st r, evaluateTemplates_first Hash service content = (st, r) /\
    (forall q, In q (requests st) -> exists body, q = !"{{" ++ body ++ !"}}" /\ contains !"{{" (body ++ !"}}") = false) /\
    (r = Err \/ exists x tree, r = Ok x /\ closed l tree).
Proof.
  intros Hash service content l Hh R. unfold evaluateTemplates_first.
  destruct (replace_enough Hash service Hh (mkTState [] []) content) as (n & Ln & ->).
  destruct (scan_general Hash service Hh n (mkTState [] []) content l Ln R) as (st & r & new & E & Rq & G & O).
  exists st, r. repeat split; auto. intros q I. cbn [requests] in Rq. rewrite app_nil_r in Rq. rewrite Rq in I.
  rewrite Forall_forall in G. apply G in I as (body & B1 & B2). exists body. auto.
Qed.

Theorem first_closed : forall Hash service content l tree, (forall s, hash_value (Hash s)) -> reading !"{{" !"}}" content l -> closed l tree ->
  exists st r, evaluateTemplates_first Hash service content = (st, r) /\
   ((r = Ok (pieces_text (map (with_holes Hash) tree)) /\ requests st = rev (all_requests Hash tree)) \/
    (r = Err /\ exists before q after, all_requests Hash tree = before ++ q :: after /\ requests st = q :: rev before /\ service (rev before) q = None)).
Proof.
  intros Hash service content l tree Hh R C. unfold evaluateTemplates_first.
  destruct (replace_enough Hash service Hh (mkTState [] []) content) as (n & Ln & ->).
  destruct (scan_closed Hash service n (mkTState [] []) content l tree Ln R C) as (st & r & E & asked & rest & A & Rq & O).
  exists st, r. split; auto. cbn [requests] in *. rewrite app_nil_r in Rq.
  destruct O as [[-> ->]|[-> (before & q & -> & S)]].
  - left. rewrite app_nil_r in A. subst asked. auto.
  - right. split; auto. exists before, q, rest. rewrite app_nil_r in S. rewrite rev_app_distr in Rq. rewrite <- app_assoc in A. auto.
Qed.
