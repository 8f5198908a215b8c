(** * The memory of slices: lemmas for C75 *)

From Coq Require Import Ascii String.
From Coq Require Import List Arith ZArith Bool Lia.
From Verif Require Import GoStr GoStrFacts FormattingModel FormattingSpec FormattingProofs SliceModel.
Import ListNotations.
Local Open Scope list_scope.

Section Memory.
Context {A : Type}.
Variable room : heap A -> slice -> list A -> list A.

Definition proper (h : heap A) (s : slice) : Prop := base s < length h /\ len s <= length (block h s).

(** Only what lies behind the first [n] elements of array [b] is changed, and new arrays are made. *)
Definition kept (b n : nat) (h h' : heap A) : Prop :=
  length h <= length h' /\ (forall i, i < length h -> length (nth i h' []) = length (nth i h [])) /\
  (forall i k, i < length h -> i <> b \/ k < n -> nth_error (nth i h' []) k = nth_error (nth i h []) k).

Lemma kept_refl : forall b n h, kept b n h h.
Proof. intros b n h. repeat split; auto. Qed.

Lemma kept_trans : forall b n b' n' h h' h'', kept b n h h' -> kept b' n' h' h'' -> (b' = b /\ n <= n') \/ length h <= b' -> kept b n h h''.
Proof.
  intros b n b' n' h h' h'' (L1 & S1 & E1) (L2 & S2 & E2) B. split; [lia|]. split.
  - intros i H. rewrite S2 by lia. auto.
  - intros i k H C. rewrite E2, E1; auto; [lia|]. destruct B as [[-> B]|B]; [|left; lia]. destruct C; [auto|right; lia].
Qed.

Lemma first_eq : forall n (a b : list A), length a = length b -> (forall k, k < n -> nth_error a k = nth_error b k) -> firstn n a = firstn n b.
Proof.
  induction n as [|n IH]; intros [|x a] [|y b] L H; cbn [length] in L; try lia; auto. cbn [firstn].
  pose proof (H 0 ltac:(lia)) as E. cbn in E. injection E as ->. f_equal. apply IH; [lia|]. intros k K. apply (H (S k)). lia.
Qed.

(** A slice of which nothing is changed *)
Lemma kept_view : forall b n h h' s, kept b n h h' -> proper h s -> base s <> b \/ len s <= n -> view h' s = view h s /\ proper h' s.
Proof.
  intros b n h h' s (L & S & E) [P1 P2] C. unfold view, block in *. split.
  - apply first_eq; auto. intros k K. apply E; auto. destruct C; [auto|right; lia].
  - split; [lia|]. unfold block. rewrite S; auto.
Qed.

Lemma firstn_length_app : forall (xs ys : list A), firstn (length xs) (xs ++ ys) = xs.
Proof. intros xs ys. rewrite firstn_app, firstn_all, Nat.sub_diag. cbn [firstn]. apply app_nil_r. Qed.

Lemma nth_new : forall (h : heap A) a, nth (length h) (h ++ [a]) [] = a.
Proof. intros h a. rewrite app_nth2, Nat.sub_diag; auto. Qed.

Lemma kept_new : forall b n h a, kept b n h (h ++ [a]).
Proof.
  intros b n h a. rewrite <- (app_nil_r h) at 1. rewrite app_nil_r. split; [rewrite app_length; lia|]. split.
  - intros i H. rewrite app_nth1; auto.
  - intros i k H C. rewrite app_nth1; auto.
Qed.

Lemma allocate_spec : forall h xs h' s, allocate room h xs = (h', s) -> (forall b n, kept b n h h') /\ proper h' s /\ view h' s = xs /\ base s = length h /\ len s = length xs.
Proof.
  intros h xs h' s E. injection E as <- <-. split; [intros; apply kept_new|]. unfold proper, view, block. cbn [base len]. rewrite nth_new, !app_length. cbn [length].
  repeat split; try lia. apply firstn_length_app.
Qed.

Lemma set_length : forall (h : heap A) b a, b < length h -> length (set_block h b a) = length h.
Proof. intros h b a H. unfold set_block. rewrite app_length, firstn_length. cbn [length]. rewrite skipn_length. lia. Qed.
Lemma set_same : forall (h : heap A) b a, b < length h -> nth b (set_block h b a) [] = a.
Proof. intros h b a H. unfold set_block. rewrite app_nth2; rewrite firstn_length; [|lia]. replace (b - Nat.min b (length h)) with 0 by lia. reflexivity. Qed.
Lemma skip_tail : forall b (h : heap A), skipn (S b) h = tl (skipn b h).
Proof. induction b as [|b IH]; intros [|x h]; try reflexivity. exact (IH h). Qed.
Lemma set_other : forall (h : heap A) b a i, b < length h -> i <> b -> nth i (set_block h b a) [] = nth i h [].
Proof.
  intros h b a i H N. rewrite <- (firstn_skipn b h) at 2. unfold set_block. destruct (Nat.lt_ge_cases i b) as [L|L].
  - rewrite !app_nth1; auto; rewrite firstn_length; lia.
  - rewrite !app_nth2; rewrite !firstn_length; try lia. replace (Nat.min b (length h)) with b by lia. destruct (i - b) as [|d] eqn:D; [lia|]. cbn [nth].
    destruct (skipn b h) as [|x t] eqn:K; [apply (f_equal (@length _)) in K; rewrite skipn_length in K; cbn in K; lia|]. cbn [nth]. f_equal.
    rewrite skip_tail, K. reflexivity.
Qed.

Lemma append_spec : forall h s xs h' s', proper h s -> go_append room h s xs = (h', s') ->
  kept (base s) (len s) h h' /\ proper h' s' /\ view h' s' = view h s ++ xs /\ len s' = len s + length xs /\ (base s' = base s \/ length h <= base s').
Proof.
  intros h s xs h' s' [P1 P2] E. unfold go_append in E. destruct (_ <=? _) eqn:C; injection E as <- <-; cbn [base len].
  - apply Nat.leb_le in C. set (a := block h s) in *. assert (LO : length (overwrite (len s) xs a) = length a) by (unfold overwrite; rewrite !app_length, firstn_length, skipn_length; lia).
    split; [|split; [|split; [|auto]]].
    + split; [rewrite set_length; auto|]. split.
      * intros i H. destruct (Nat.eq_dec i (base s)) as [->|N]; [rewrite set_same by auto; exact LO|rewrite set_other; auto].
      * intros i k H D. destruct (Nat.eq_dec i (base s)) as [->|N]; [|rewrite set_other; auto]. rewrite set_same by auto. destruct D as [D|D]; [lia|].
        unfold overwrite. rewrite nth_error_app1 by (rewrite firstn_length; lia). fold (block h s). fold a. rewrite <- (firstn_skipn (len s) a) at 2. rewrite nth_error_app1; auto. rewrite firstn_length. lia.
    + unfold proper, block. cbn [base len]. rewrite set_length by auto. split; auto. rewrite set_same by auto. lia.
    + unfold view at 1, block. cbn [base len]. rewrite set_same by auto. unfold overwrite. rewrite app_assoc.
      replace (len s + length xs) with (length (firstn (len s) a ++ xs)) by (rewrite app_length, firstn_length; lia). apply firstn_length_app.
  - assert (LV : length (view h s) = len s) by (unfold view; rewrite firstn_length; lia).
    assert (NB : forall n, block (h ++ [view h s ++ xs ++ room h s xs]) (mkSlice (length h) n) = (view h s ++ xs) ++ room h s xs) by (intros n; unfold block; cbn [base]; rewrite nth_new, app_assoc; reflexivity).
    split; [apply kept_new|]. split; [|split; [|split; [reflexivity|right; apply le_n]]].
    + split; [cbn [base]; rewrite app_length; cbn [length]; lia|]. rewrite NB. cbn [len]. rewrite !app_length. lia.
    + unfold view at 1. rewrite NB. cbn [len]. replace (len s + length xs) with (length (view h s ++ xs)) by (rewrite app_length; lia). apply firstn_length_app.
Qed.
End Memory.

(** ** The stacks *)

Lemma odd_rev : forall l, hasOddNumberOfItems (rev l) = hasOddNumberOfItems l.
Proof.
  assert (H : forall l, counters (rev l) (0, 0)%Z = counters l (0, 0)%Z).
  { induction l as [|x l IH]; [reflexivity|]. rewrite counters_cons. cbn [rev]. unfold counters at 1. rewrite fold_left_app. fold (counters (rev l) (0, 0)%Z). rewrite IH.
    destruct (counters [x] (0, 0)%Z) as [a b] eqn:X. rewrite (counters_swap l a b).
    change (fold_left _ [x] (counters l (0, 0)%Z)) with (counters [x] (counters l (0, 0)%Z)). destruct (counters l (0, 0)%Z) as [p q]. rewrite (counters_swap [x] p q), X. cbn [fst snd]. f_equal; lia. }
  intros l. unfold hasOddNumberOfItems. change (fold_left _ (rev l) (0, 0)%Z) with (counters (rev l) (0, 0)%Z). change (fold_left _ l (0, 0)%Z) with (counters l (0, 0)%Z). rewrite H. reflexivity.
Qed.

Lemma view_last : forall h stack, proper h stack -> last_type h stack = match rev (view h stack) with i :: _ => Some (itemType i) | [] => None end.
Proof.
  intros h stack [P1 P2]. unfold last_type, view. destruct (len stack) as [|n] eqn:L; [reflexivity|].
  destruct (nth_error (block h stack) n) as [x|] eqn:N; [|apply nth_error_None in N; lia]. apply nth_error_split in N as (a & b & E & La). rewrite E.
  replace (S n) with (length (a ++ [x])) by (rewrite app_length; cbn; lia). replace (a ++ x :: b) with ((a ++ [x]) ++ b) by (rewrite <- app_assoc; reflexivity).
  rewrite firstn_length_app, rev_app_distr. reflexivity.
Qed.
Lemma view_bold : forall h stack, proper h stack -> last_is_BOLD_OPEN h stack = last_is_bold_open (rev (view h stack)).
Proof. intros h stack P. unfold last_is_BOLD_OPEN. rewrite view_last by auto. destruct (rev _) as [|[[] ? ?] ?]; reflexivity. Qed.
Lemma view_italic : forall h stack, proper h stack -> last_is_ITALIC_OPEN h stack = last_is_italic_open (rev (view h stack)).
Proof. intros h stack P. unfold last_is_ITALIC_OPEN. rewrite view_last by auto. destruct (rev _) as [|[[] ? ?] ?]; reflexivity. Qed.
Lemma view_length : forall h (stack : slice), proper (A := BoldItalicStackItem) h stack -> len stack = length (rev (view h stack)).
Proof. intros h stack [P1 P2]. rewrite rev_length. unfold view. rewrite firstn_length. lia. Qed.

Section Stacks.
Variable room : heap BoldItalicStackItem -> slice -> list BoldItalicStackItem -> list BoldItalicStackItem.

(** The memory and the result after some work on a stack, compared with the value *)
Definition agrees (h : heap BoldItalicStackItem) (stack : slice) (r : heap BoldItalicStackItem * option slice) (v : option (list BoldItalicStackItem)) : Prop :=
  kept (base stack) (len stack) h (fst r) /\
  match snd r, v with
  | Some s, Some l => proper (fst r) s /\ rev (view (fst r) s) = l
  | None, None => True
  | _, _ => False
  end.

Lemma agrees_after : forall h stack h' stack' r v, kept (base stack) (len stack) h h' -> (base stack' = base stack /\ len stack <= len stack') \/ length h <= base stack' ->
  agrees h' stack' r v -> agrees h stack r v.
Proof. intros h stack h' stack' r v K B [K' R]. split; auto. eapply kept_trans; eauto. Qed.

(** Appending to a stack *)
Lemma push_one : forall h stack i h' s, proper h stack -> go_append room h stack [i] = (h', s) ->
  kept (base stack) (len stack) h h' /\ proper h' s /\ proper h' stack /\ rev (view h' s) = i :: rev (view h stack) /\ view h' stack = view h stack /\
  ((base s = base stack /\ len stack <= len s) \/ length h <= base s).
Proof.
  intros h stack i h' s P E. destruct (append_spec room _ _ _ _ _ P E) as (K & P' & V & L & B). destruct (kept_view _ _ _ _ stack K P (or_intror (le_n _))) as [V' P''].
  split; auto. split; auto. split; auto. split; [rewrite V, rev_app_distr; reflexivity|]. split; auto. destruct B; [left; split; auto; lia|auto].
Qed.

(** Appending three items *)
Lemma push_three : forall h stack i j k h1 s1 h2 s2 h3 s3, proper h stack -> go_append room h stack [i] = (h1, s1) -> go_append room h1 s1 [j] = (h2, s2) -> go_append room h2 s2 [k] = (h3, s3) ->
  kept (base stack) (len stack) h h3 /\ proper h3 s3 /\ proper h3 stack /\ rev (view h3 s3) = k :: j :: i :: rev (view h stack) /\ view h3 stack = view h stack /\
  ((base s3 = base stack /\ len stack <= len s3) \/ length h <= base s3).
Proof.
  intros h stack i j k h1 s1 h2 s2 h3 s3 P E1 E2 E3. apply push_one in E1 as (K1 & P1 & Q1 & V1 & W1 & B1); auto. apply push_one in E2 as (K2 & P2 & Q2 & V2 & W2 & B2); auto.
  apply push_one in E3 as (K3 & P3 & Q3 & V3 & W3 & B3); auto.
  assert (K12 : kept (base stack) (len stack) h h2) by (eapply kept_trans; eauto). pose proof (proj1 K1) as L1. pose proof (proj1 K2) as L2.
  assert (B12 : (base s2 = base stack /\ len stack <= len s2) \/ length h <= base s2) by (destruct B1 as [[? ?]|?], B2 as [[? ?]|?]; [left; split; [congruence|lia]|right; lia..]).
  assert (K : kept (base stack) (len stack) h h3) by (eapply kept_trans; eauto). destruct (kept_view _ _ _ _ stack K P (or_intror (le_n _))) as [V' P''].
  split; auto. split; auto. split; auto. split; [congruence|]. split; auto.
  destruct B12 as [[? ?]|?], B3 as [[? ?]|?]; [left; split; [congruence|lia]|right; lia..].
Qed.

Lemma tokenize_agrees : forall n s aq i h stack rep bo it, length s <= n -> proper h stack ->
  agrees h stack (tokenize_mem room s aq i h stack rep bo it) (tokenizeBoldAndItalic s aq i (rev (view h stack)) rep bo it).
Proof.
  induction n as [|n IH]; intros s aq i h stack rep bo it L P.
  - destruct s; [|cbn in L; lia]. cbn [tokenize_mem tokenizeBoldAndItalic]. rewrite odd_rev. destruct (hasOddNumberOfItems _); (split; [apply kept_refl|]); cbn [fst snd]; auto.
  - destruct s as [|c s1]; [cbn [tokenize_mem tokenizeBoldAndItalic]; rewrite odd_rev; destruct (hasOddNumberOfItems _); (split; [apply kept_refl|]); cbn [fst snd]; auto|].
    cbn [tokenize_mem tokenizeBoldAndItalic]. cbn [length] in L.
    set (IM := if has_prefix !"''" (c :: s1) then _ else (h, None)). set (IV := if has_prefix !"''" (c :: s1) then _ else None).
    assert (IT : kept (base stack) (len stack) h (fst IM) /\
      match snd IM, IV with
      | Some r, Some v => agrees h stack (fst IM, r) v
      | None, None => True
      | _, _ => False
      end).
    { unfold IM, IV. destruct (has_prefix !"''" (c :: s1)); [|split; [apply kept_refl|exact I]].
      set (t := if it then ITALIC_CLOSE else ITALIC_OPEN).
      destruct (go_append room h stack [mkItem t i 2]) as [h1 s1'] eqn:E1. apply push_one in E1 as (K1 & P1 & Q1 & V1 & W1 & B1); auto. rewrite view_bold, W1 by auto.
      assert (NEXT : forall h2 s2 st, kept (base stack) (len stack) h h2 -> proper h2 s2 -> rev (view h2 s2) = st -> (base s2 = base stack /\ len stack <= len s2) \/ length h <= base s2 ->
        let m := match s1 with
          | _ :: s2' => match tokenize_mem room s2' true (i + 2) h2 s2 rep bo (negb it) with (h, Some newStack) => (h, Some (Some newStack)) | (h, None) => (h, None) end
          | [] => (h2, None) end in
        let v := match s1 with
          | _ :: s2' => match tokenizeBoldAndItalic s2' true (i + 2) st rep bo (negb it) with Some newStack => Some (Some newStack) | None => None end
          | [] => None end in
        kept (base stack) (len stack) h (fst m) /\ match snd m, v with Some r, Some v => agrees h stack (fst m, r) v | None, None => True | _, _ => False end).
      { intros h2 s2 st K P2 <- B. cbv zeta. destruct s1 as [|d s2']; [split; [exact K|exact I]|]. cbn [length] in L.
        pose proof (agrees_after _ _ _ _ _ _ K B (IH s2' true (i + 2) h2 s2 rep bo (negb it) ltac:(lia) P2)) as [K' R]. destruct (tokenize_mem _ _ _ _ _ _ _ _ _) as [h3 [r|]] eqn:EM; cbn [fst snd] in *.
        - split; auto. revert R. destruct (tokenizeBoldAndItalic s2' true (i + 2) (rev (view h2 s2)) rep bo (negb it)); intros R; [|contradiction]. split; auto.
        - split; auto. revert R. destruct (tokenizeBoldAndItalic s2' true (i + 2) (rev (view h2 s2)) rep bo (negb it)); intros R; [contradiction|exact I]. }
      destruct (last_is_bold_open (rev (view h stack)) && it).
      - destruct rep.
        + destruct (go_append room h1 stack [_]) as [h2 s2] eqn:E2. destruct (go_append room h2 s2 [_]) as [h3 s3] eqn:E3. destruct (go_append room h3 s3 [_]) as [h4 s4] eqn:E4.
          destruct (push_three _ _ _ _ _ _ _ _ _ _ _ Q1 E2 E3 E4) as (K & P4 & Q4 & V4 & W4 & B4). apply NEXT; auto.
          * eapply kept_trans; eauto.
          * rewrite V4, W1. reflexivity.
          * pose proof (proj1 K1). destruct B4 as [?|?]; [auto|right; lia].
        + destruct (has_prefix !"'''" (c :: s1)); cbn [fst snd]; (split; [exact K1|]); auto. split; [exact K1|exact I].
      - apply NEXT; auto. }
    destruct IT as [K IT]. destruct IM as [h' [r|]]; cbn [fst snd] in K, IT; destruct IV as [v|]; try contradiction; [exact IT|]. clear IT.
    destruct (kept_view _ _ _ _ stack K P (or_intror (le_n _))) as [V' P'].
    assert (Z : forall r v, agrees h' stack r v -> agrees h stack r v) by (intros r v; apply agrees_after; auto). apply Z. clear Z.
    rewrite <- V'. clear K V' P h. rename h' into h, P' into P.
    destruct (has_prefix !"'''" (c :: s1)).
    + set (t := if bo then BOLD_CLOSE else BOLD_OPEN).
      destruct (go_append room h stack [mkItem t i 3]) as [h1 s1'] eqn:E1. apply push_one in E1 as (K1 & P1 & Q1 & V1 & W1 & B1); auto. rewrite view_italic, W1 by auto.
      assert (NEXT : forall h2 s2 st, kept (base stack) (len stack) h h2 -> proper h2 s2 -> rev (view h2 s2) = st -> (base s2 = base stack /\ len stack <= len s2) \/ length h <= base s2 ->
        agrees h stack match s1 with _ :: _ :: s3 => tokenize_mem room s3 true (i + 3) h2 s2 rep (negb bo) it | _ => (h2, None) end
          match s1 with _ :: _ :: s3 => tokenizeBoldAndItalic s3 true (i + 3) st rep (negb bo) it | _ => None end).
      { intros h2 s2 st K P2 <- B. destruct s1 as [|d [|e s3]]; [split; [exact K|exact I]..|]. cbn [length] in L. eapply agrees_after; [exact K|exact B|]. apply IH; [lia|auto]. }
      destruct (last_is_italic_open (rev (view h stack)) && bo).
      * destruct rep; [|split; [exact K1|exact I]].
        destruct (go_append room h1 stack [_]) as [h2 s2] eqn:E2. destruct (go_append room h2 s2 [_]) as [h3 s3] eqn:E3. destruct (go_append room h3 s3 [_]) as [h4 s4] eqn:E4.
        destruct (push_three _ _ _ _ _ _ _ _ _ _ _ Q1 E2 E3 E4) as (K & P4 & Q4 & V4 & W4 & B4). apply NEXT; auto.
        -- eapply kept_trans; eauto.
        -- rewrite V4, W1. reflexivity.
        -- pose proof (proj1 K1). destruct B4 as [?|?]; [auto|right; lia].
      * apply NEXT; auto.
    + destruct (aq && Ascii.eqb c quote); [split; [apply kept_refl|exact I]|]. destruct (has_prefix !"''" (c :: s1)); [split; [apply kept_refl|exact I]|].
      rewrite odd_rev, (view_length h stack P). destruct (_ && _); [split; [apply kept_refl|cbn [fst snd]; auto]|]. apply IH; [lia|auto].
Qed.
End Stacks.

(** ** The markers *)

Section Markers.
Variable more : heap ascii -> slice -> str -> str.

Lemma marker_longer : forall t, 20 <= length (marker_of t).
Proof. intros []; cbn; lia. Qed.

Lemma insert_agrees : forall stack h chars offset idx n, proper h chars -> len chars = n + offset -> Forall (fun i => item_index i + item_length i <= n /\ item_length i <= 20) stack ->
  exists h' chars', insert_mem more stack h chars offset idx = Ok (h', chars', snd (insert_markers stack (view h chars) offset idx)) /\
    proper h' chars' /\ view h' chars' = fst (insert_markers stack (view h chars) offset idx).
Proof.
  induction stack as [|item stack IH]; intros h chars offset idx n P L F; cbn [insert_mem insert_markers]; [eexists _, _; split; [reflexivity|]; auto|].
  apply Forall_cons_iff in F as [[F1 F2] F]. destruct (len chars <? item_index item + offset + item_length item) eqn:C; [apply Nat.ltb_lt in C; lia|]. clear C.
  destruct (allocate more h _) as [h1 after'] eqn:E1. apply allocate_spec in E1 as (K1 & P1 & V1 & B1 & L1).
  assert (LV : length (view h chars) = len chars) by (unfold view; rewrite firstn_length; destruct P; lia).
  set (x := item_index item + offset) in *.
  assert (Pb : proper h (mkSlice (base chars) x)) by (destruct P as [Pa Pc]; split; [exact Pa|]; unfold block in *; cbn [base len] in *; lia).
  destruct (kept_view _ _ _ _ _ (K1 (S (base chars)) 0) Pb) as [Vb Pb1]; [left; cbn; lia|].
  destruct (go_append more h1 _ _) as [h2 c2] eqn:E2. destruct (append_spec _ _ _ _ _ _ Pb1 E2) as (K2 & P2 & V2 & L2 & B2). cbn [base len] in K2, L2, B2.
  destruct (kept_view _ _ _ _ _ K2 P1) as [V3 P3]; [left; destruct P; lia|].
  destruct (go_append more h2 c2 _) as [h3 c3] eqn:E3. destruct (append_spec _ _ _ _ _ _ P2 E3) as (K3 & P4 & V4 & L4 & B4).
  rewrite V3, V1 in V4, L4. 
  assert (X : view h (mkSlice (base chars) x) = firstn x (view h chars)).
  { unfold view, block. cbn [base len]. rewrite firstn_firstn. f_equal. lia. }
  assert (V : view h3 c3 = (firstn x (view h chars) ++ marker_of (itemType item)) ++ skipn (x + item_length item) (view h chars)) by (rewrite V4, V2, Vb, X; reflexivity).
  assert (L3 : len c3 = length ((firstn x (view h chars) ++ marker_of (itemType item)) ++ skipn (x + item_length item) (view h chars))).
  { rewrite L4, L2, !app_length, firstn_length. lia. }
  assert (L5 : len c2 = length (firstn x (view h chars) ++ marker_of (itemType item))) by (rewrite L2, app_length, firstn_length; lia).
  assert (L6 : length (view h3 c3) = len c3) by (rewrite V; symmetry; exact L3).
  rewrite <- V, L5. replace (length (view h3 c3) - length (view h chars)) with (len c3 - len chars) by lia.
  apply (IH h3 c3 _ _ n); auto. pose proof (marker_longer (itemType item)). rewrite L3, !app_length, firstn_length, skipn_length, LV, L. lia.
Qed.
End Markers.

Lemma items_bound : forall l i, Forall replaced l -> Forall (fun x => item_index x + item_length x <= i + length (befores l) /\ item_length x <= 20) (items_at i l).
Proof.
  induction l as [|[c|m q] l IH]; intros i R; apply Forall_cons_iff in R as [R1 R] || constructor; cbn [items_at].
  - eapply Forall_impl; [|apply (IH (S i) R)]. intros x H. cbn beta in *. change (befores (Text c :: l)) with ([c] ++ befores l). rewrite app_length. cbn [length]. lia.
  - change (befores (Mark m q :: l)) with (q ++ befores l). rewrite app_length. constructor.
    + cbn [item_index item_length]. split; [lia|]. cbn [replaced] in R1. destruct R1 as [->| ->]; [cbn; lia|]. destruct (style_of m); cbn; lia.
    + eapply Forall_impl; [|apply (IH (i + length q) R)]. intros x H. cbn beta in *. lia.
Qed.

Theorem parse_mem_agrees : forall room more fuel hi hb content idx, parse_mem_go room more fuel hi hb content idx = parseBoldAndItalic_go fuel content idx.
Proof.
  intros room more. induction fuel as [|fuel IH]; intros hi hb content idx; [reflexivity|]. cbn [parse_mem_go parseBoldAndItalic_go].
  destruct (index !"''" (skipn idx content)) as [k|] eqn:K; [|reflexivity]. apply index_some_split in K as (a & b & Es & <- & _ & _).
  assert (LC : idx + length a <= length content) by (apply (f_equal (@length _)) in Es; rewrite skipn_length, !app_length in Es; cbn [length] in Es; lia).
  set (aq := match idx + length a with 0 => false | S i => _ end). clearbody aq. set (s := skipn (idx + length a) content).
  destruct (allocate room hi []) as [h0 s0] eqn:E0. apply allocate_spec in E0 as (_ & P0 & V0 & _ & _).
  pose proof (tokenize_agrees room (length s) s aq (idx + length a) h0 s0 false false false (le_n _) P0) as T1. rewrite V0 in T1. cbn [rev] in T1.
  assert (DONE : forall rep h st stack, tokenizeBoldAndItalic s aq (idx + length a) [] rep false false = Some stack -> proper h st -> rev (view h st) = stack ->
    (let (hb, chars) := allocate more hb content in
     match insert_mem more (view h st) hb chars 0 (idx + length a) with
     | Ok (hb, chars, idx) => parse_mem_go room more fuel h hb (view hb chars) idx
     | Err => Err | Panic => Panic | OutOfFuel => OutOfFuel
     end) = (let (content, idx) := insert_markers (rev stack) content 0 (idx + length a) in parseBoldAndItalic_go fuel content idx)).
  { intros rep h st stack T P V. destruct (allocate more hb content) as [h1 c1] eqn:E1. apply allocate_spec in E1 as (_ & P1 & V1 & _ & L1).
    destruct (tok_spec (length s) s aq (idx + length a) [] rep false false [] stack (le_n _) inv_start T) as (l & tail & Et & G & El & _). rewrite app_nil_r in El.
    assert (EV : view h st = items_at (idx + length a) l) by (rewrite <- (rev_involutive (view h st)), V, El, rev_involutive; reflexivity).
    assert (ES : rev stack = view h st) by (rewrite <- V, rev_involutive; reflexivity). rewrite ES.
    destruct (insert_agrees more (view h st) h1 c1 0 (idx + length a) (length content) P1) as (h2 & c2 & -> & P2 & V2); [lia| |].
    - rewrite EV. eapply Forall_impl; [|apply items_bound, grouped_replaced, G]. intros x H. cbn beta in *. split; [|lia].
      assert (length s = length (befores l) + length tail) by (rewrite Et, app_length; reflexivity). unfold s in H0. rewrite skipn_length in H0. lia.
    - rewrite V1 in *. rewrite V2, IH. destruct (insert_markers _ _ _ _). reflexivity. }
  destruct (tokenize_mem room s aq (idx + length a) h0 s0 false false false) as [h1 [st|]]; destruct T1 as [_ T1]; cbn [fst snd] in T1.
  - destruct (tokenizeBoldAndItalic s aq (idx + length a) [] false false false) as [stack|] eqn:T; [|contradiction]. destruct T1 as [P V]. eapply DONE; eauto.
  - destruct (tokenizeBoldAndItalic s aq (idx + length a) [] false false false) as [stack|] eqn:T; [contradiction|]. clear T1.
    destruct (allocate room h1 []) as [h2 s2] eqn:E2. apply allocate_spec in E2 as (_ & P2 & V2 & _ & _).
    pose proof (tokenize_agrees room (length s) s aq (idx + length a) h2 s2 true false false (le_n _) P2) as T2. rewrite V2 in T2. cbn [rev] in T2.
    destruct (tokenize_mem room s aq (idx + length a) h2 s2 true false false) as [h3 [st|]]; destruct T2 as [_ T2]; cbn [fst snd] in T2.
    + destruct (tokenizeBoldAndItalic s aq (idx + length a) [] true false false) as [stack|] eqn:T'; [|contradiction]. destruct T2 as [P V]. eapply DONE; eauto.
    + destruct (tokenizeBoldAndItalic s aq (idx + length a) [] true false false) as [stack|] eqn:T'; [contradiction|]. reflexivity.
Qed.
