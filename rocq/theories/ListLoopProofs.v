(** * Proofs about the loop of parseLists with its index *)

From Coq Require Import Ascii String.
From Coq Require Import List Arith Bool Lia.
From Verif Require Import GoStr TokenModel ListModel ListLoopModel.
Import ListNotations.
Local Open Scope list_scope.

Section Recursive.
  Variable tokenizeContent : str -> M str.

  (** A list has at least one line, and no more lines than there are. *)
  Lemma tokenizeList_length : forall fuel line lines c rest t x key n t', trim_space line = c :: rest -> isListStartingCharacter c = true ->
    tokenizeList tokenizeContent fuel (line :: lines) c t = Ok (x, key, n, t') -> 1 <= n /\ n <= S (List.length lines).
  Proof.
    intros [|fuel] line lines c rest t x key n t' E L H; [discriminate|]. cbn [tokenizeList] in H. unfold bindM in H.
    destruct (listItems _ _ _ _ _ _ _) as [[items t1]| | |]; cbn [bind] in H; try discriminate.
    destruct (getToken (getListTokenKey c) t1) as [[k t2]| | |]; cbn [bind] in H; try discriminate.
    match type of H with bind ?m _ = _ => destruct m as [[u t3]| | |]; cbn [bind] in H; try discriminate end. unfold ret in H. injection H as _ _ <- _.
    cbn [map take_while]. rewrite E. assert (B : belongsToListPrefix (c :: rest) c = true).
    { unfold belongsToListPrefix. rewrite Ascii.eqb_refl. destruct (Ascii.eqb c ";") eqn:Q; auto. rewrite orb_true_r. reflexivity. }
    rewrite B. cbn [List.length]. split; [lia|]. apply le_n_S. clear. induction lines as [|l lines IH]; cbn [map take_while List.length]; [lia|].
    destruct (belongsToListPrefix _ _); cbn [List.length]; lia.
  Qed.

  Lemma go_skip : forall n lines, parseLists_go tokenizeContent lines n = parseLists_go tokenizeContent (skipn n lines) 0.
  Proof. induction n as [|n IH]; intros [|l lines]; auto. cbn [skipn parseLists_go]. apply IH. Qed.

  Lemma loop_agrees : forall fuel before lines t, List.length lines < fuel ->
    parseLists_loop tokenizeContent fuel (before ++ lines) (List.length before) t =
    match parseLists_go tokenizeContent lines 0 t with Ok (r, t') => Ok (before ++ r, t') | Err => Err | Panic => Panic | OutOfFuel => OutOfFuel end.
  Proof.
    induction fuel as [|fuel IH]; intros before lines t F; [lia|]. cbn [parseLists_loop]. destruct lines as [|line lines].
    - rewrite app_nil_r, Nat.ltb_irrefl. cbn [parseLists_go]. unfold ret. rewrite app_nil_r. reflexivity.
    - assert (X : (List.length before <? List.length (before ++ line :: lines)) = true) by (apply Nat.ltb_lt; rewrite app_length; cbn [List.length]; lia).
      rewrite X. clear X. rewrite nth_middle. cbn [List.length] in F.
      assert (K : parseLists_loop tokenizeContent fuel (before ++ line :: lines) (S (List.length before)) t =
        match (do! r := parseLists_go tokenizeContent lines 0 in ret (line :: r)) t with Ok (r, t') => Ok (before ++ r, t') | Err => Err | Panic => Panic | OutOfFuel => OutOfFuel end).
      { specialize (IH (before ++ [line]) lines t ltac:(lia)). rewrite <- app_assoc, app_length, Nat.add_1_r in IH. cbn [app] in IH. rewrite IH. unfold bindM, ret.
        destruct (parseLists_go tokenizeContent lines 0 t) as [[r t']| | |]; auto. rewrite <- app_assoc. reflexivity. }
      cbn [parseLists_go]. destruct (trim_space line) as [|c rest] eqn:T; [exact K|]. destruct (isListStartingCharacter c) eqn:C; [|exact K]. clear K.
      assert (S1 : skipn (List.length before) (before ++ line :: lines) = line :: lines) by (rewrite skipn_app, skipn_all, Nat.sub_diag; reflexivity).
      rewrite S1. unfold bindM, ret. destruct (tokenizeList tokenizeContent _ (line :: lines) c t) as [[[[x key] n] t1]| | |] eqn:E; auto.
      destruct (tokenizeList_length _ _ _ _ _ _ _ _ _ _ T C E) as (N1 & N2).
      assert (S2 : firstn (List.length before) (before ++ line :: lines) = before) by (rewrite firstn_app, firstn_all, Nat.sub_diag, app_nil_r; reflexivity).
      rewrite S2.
      assert (S3 : (if List.length before + n <? List.length (before ++ line :: lines) then (before ++ [key]) ++ skipn (List.length before + n) (before ++ line :: lines) else before ++ [key]) =
        (before ++ [key]) ++ skipn (pred n) lines).
      { destruct n as [|n]; [lia|]. cbn [pred]. assert (Y : skipn (List.length before + S n) (before ++ line :: lines) = skipn n lines).
        { rewrite skipn_app, skipn_all2 by lia. replace (List.length before + S n - List.length before) with (S n) by lia. reflexivity. }
        rewrite Y, app_length. cbn [List.length]. destruct (_ <? _) eqn:Z; auto. apply Nat.ltb_ge in Z. rewrite skipn_all2, app_nil_r by lia. reflexivity. }
      cbn [bind]. cbv beta iota zeta. rewrite S3. specialize (IH (before ++ [key]) (skipn (pred n) lines) t1). rewrite app_length, Nat.add_1_r in IH. rewrite IH by (rewrite skipn_length; lia).
      rewrite (go_skip (pred n)). destruct (parseLists_go tokenizeContent (skipn (pred n) lines) 0 t1) as [[r t2]| | |]; auto. rewrite <- app_assoc. reflexivity.
  Qed.

  Theorem index_agrees : forall content t, parseLists_index tokenizeContent content t = parseLists tokenizeContent content t.
  Proof.
    intros content t. unfold parseLists_index, parseLists, bindM. cbv zeta. pose proof (loop_agrees (S (List.length (split nl content))) [] (split nl content) t ltac:(lia)) as H.
    cbn [app List.length] in H. rewrite H.
    destruct (parseLists_go _ _ _ _) as [[r t']| | |]; reflexivity.
  Qed.
End Recursive.
