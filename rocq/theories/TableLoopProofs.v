(** * Proofs about the loops of parseTables and tokenizeTables with their indices *)

From Coq Require Import Ascii String.
From Coq Require Import List Arith Bool Lia.
From Verif Require Import GoStr TokenModel TableModel TableLoopModel.
Import ListNotations.
Local Open Scope list_scope.

Lemma skipn_nth : forall A (d : A) i l, i < List.length l -> skipn i l = nth i l d :: skipn (S i) l.
Proof. intros A d. induction i as [|i IH]; intros [|x l] H; cbn [List.length] in H; try lia; auto. cbn [skipn nth]. apply IH. lia. Qed.

Section Recursive.
  Variable tokenizeContent : str -> M str.

  Lemma tables_loop_agrees : forall fuel lines i tl t, List.length lines - i <= fuel ->
    match tokenizeTables_go tokenizeContent fuel (skipn i lines) t with
    | Ok (r, after, t') => exists j, tokenizeTables_loop tokenizeContent (S fuel) lines i tl t = Ok (tl ++ r, j, t') /\ after = skipn (S j) lines /\ i <= j
    | Err => tokenizeTables_loop tokenizeContent (S fuel) lines i tl t = Err
    | Panic => tokenizeTables_loop tokenizeContent (S fuel) lines i tl t = Panic
    | OutOfFuel => tokenizeTables_loop tokenizeContent (S fuel) lines i tl t = OutOfFuel
    end.
  Proof.
    induction fuel as [|fuel IH]; intros lines i tl t F.
    - rewrite skipn_all2 by lia. cbn [tokenizeTables_go tokenizeTables_loop]. unfold ret. assert (X : (i <? List.length lines) = false) by (apply Nat.ltb_ge; lia).
      rewrite X. exists i. rewrite app_nil_r, skipn_all2 by lia. auto.
    - remember (S fuel) as f1. cbn [tokenizeTables_loop]. subst f1. destruct (i <? List.length lines) eqn:X.
      + apply Nat.ltb_lt in X. rewrite (skipn_nth str [] i lines) by auto. cbn [tokenizeTables_go]. set (line0 := nth i lines []). cbv zeta.
        destruct (has_prefix _ (trim_space line0) || has_prefix _ (trim_space line0)).
        * unfold bindM. pose proof (IH lines (S i) [line0] t ltac:(lia)) as H1.
          destruct (tokenizeTables_go tokenizeContent fuel (skipn (S i) lines) t) as [[[nested after] t1]| | |]; [|rewrite H1; reflexivity..].
          destruct H1 as (j & -> & -> & J). cbn [bind app]. destruct (finishTable tokenizeContent (line0 :: nested) t1) as [[key t2]| | |]; cbn [bind]; auto.
          pose proof (IH lines (S j) (tl ++ [key]) t2 ltac:(lia)) as H2.
          destruct (tokenizeTables_go tokenizeContent fuel (skipn (S j) lines) t2) as [[[r after] t3]| | |]; cbn [bind]; [|exact H2..].
          destruct H2 as (k & E & A & K). unfold ret. exists k. rewrite E, <- app_assoc. split; [reflexivity|]. split; [exact A|lia].
        * destruct (has_prefix _ (trim_space line0)); [unfold ret; exists i; auto|]. unfold bindM. pose proof (IH lines (S i) (tl ++ [line0]) t ltac:(lia)) as H1.
          destruct (tokenizeTables_go tokenizeContent fuel (skipn (S i) lines) t) as [[[r after] t1]| | |]; cbn [bind]; [|exact H1..].
          destruct H1 as (k & E & A & K). unfold ret. exists k. rewrite E, <- app_assoc. split; [reflexivity|]. split; [exact A|lia].
      + apply Nat.ltb_ge in X. rewrite skipn_all2 by lia. cbn [tokenizeTables_go]. unfold ret. exists i. rewrite app_nil_r, skipn_all2 by lia. auto.
  Qed.

  Lemma tables_agree : forall fuel before lines t, List.length lines <= fuel ->
    parseTables_loop tokenizeContent (S fuel) (before ++ lines) (List.length before) t =
    match parseTables_go tokenizeContent fuel lines t with Ok (r, t') => Ok (before ++ r, t') | Err => Err | Panic => Panic | OutOfFuel => OutOfFuel end.
  Proof.
    induction fuel as [|fuel IH]; intros before lines t F; (destruct lines as [|line lines];
      [cbn [parseTables_loop]; rewrite app_nil_r, Nat.ltb_irrefl; cbn [parseTables_go]; unfold ret; rewrite app_nil_r; reflexivity|cbn [List.length] in F; try lia]).
    remember (S fuel) as f1. cbn [parseTables_loop]. subst f1.
    assert (X : (List.length before <? List.length (before ++ line :: lines)) = true) by (apply Nat.ltb_lt; rewrite app_length; cbn [List.length]; lia).
    rewrite X. clear X. rewrite nth_middle. cbn [parseTables_go]. destruct (table_start (trim_space line)) as [prefix|].
    - unfold tokenizeTables_index, tokenizeTables, bindM. rewrite nth_middle. set (all := before ++ line :: lines).
      assert (LA : List.length all = List.length before + S (List.length lines)) by (unfold all; rewrite app_length; reflexivity).
      assert (SA : skipn (S (List.length before)) all = lines).
      { unfold all. rewrite skipn_app, skipn_all2 by lia. replace (S (List.length before) - List.length before) with 1 by lia. reflexivity. }
      replace (List.length all - List.length before) with (S (List.length lines)) by lia.
      pose proof (tables_loop_agrees (List.length lines) all (S (List.length before)) [line] t ltac:(lia)) as H. rewrite SA in H.
      destruct (tokenizeTables_go tokenizeContent (List.length lines) lines t) as [[[r after] t1]| | |]; [|rewrite H; reflexivity..].
      destruct H as (j & -> & -> & J). cbn [bind app]. destruct (finishTable tokenizeContent (line :: r) t1) as [[key t2]| | |]; cbn [bind]; auto. unfold ret. cbn [bind]. cbv beta iota zeta.
      assert (S2 : firstn (List.length before) all = before) by (unfold all; rewrite firstn_app, firstn_all, Nat.sub_diag, app_nil_r; reflexivity).
      rewrite S2. replace (List.length before + (j - List.length before) + 1) with (S j) by lia.
      assert (S3 : (if S j <? List.length all then (before ++ [prefix ++ key]) ++ skipn (S j) all else before ++ [prefix ++ key]) = (before ++ [prefix ++ key]) ++ skipn (S j) all).
      { destruct (S j <? List.length all) eqn:Z; auto. apply Nat.ltb_ge in Z. rewrite skipn_all2, app_nil_r by lia. reflexivity. }
      rewrite S3. specialize (IH (before ++ [prefix ++ key]) (skipn (S j) all) t2). rewrite app_length, Nat.add_1_r in IH. rewrite IH by (rewrite skipn_length; lia).
      destruct (parseTables_go tokenizeContent fuel (skipn (S j) all) t2) as [[x t3]| | |]; cbn [bind]; auto. rewrite <- app_assoc. reflexivity.
    - specialize (IH (before ++ [line]) lines t ltac:(lia)). rewrite <- app_assoc, app_length, Nat.add_1_r in IH. cbn [app] in IH. rewrite IH. unfold bindM, ret.
      destruct (parseTables_go tokenizeContent fuel lines t) as [[r t']| | |]; cbn [bind]; auto. rewrite <- app_assoc. reflexivity.
  Qed.

  Theorem tables_index_agree : forall content t, parseTables_index tokenizeContent content t = parseTables tokenizeContent content t.
  Proof.
    intros content t. unfold parseTables_index, parseTables, bindM. cbv zeta. pose proof (tables_agree (List.length (split nl content)) [] (split nl content) t ltac:(lia)) as H.
    cbn [app List.length] in H. rewrite H. destruct (parseTables_go _ _ _ _) as [[r t']| | |]; reflexivity.
  Qed.
End Recursive.
