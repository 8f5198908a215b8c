(** * Proofs about bold and italic text *)

From Coq Require Import Ascii String.
From Coq Require Import List Arith ZArith Bool Lia.
From Verif Require Import GoStr GoStrFacts TextFacts FormattingModel FormattingSpec.
Import ListNotations.
Local Open Scope list_scope.

Definition type_of (m : marker) : BoldItalicStackItemType :=
  match m with Open Bold => BOLD_OPEN | Close Bold => BOLD_CLOSE | Open Italic => ITALIC_OPEN | Close Italic => ITALIC_CLOSE end.
Definition of_type (t : BoldItalicStackItemType) : marker :=
  match t with BOLD_OPEN => Open Bold | BOLD_CLOSE => Close Bold | ITALIC_OPEN => Open Italic | ITALIC_CLOSE => Close Italic end.

Lemma marker_text_of : forall m, marker_of (type_of m) = marker_text m.
Proof. intros [[]|[]]; reflexivity. Qed.

(** ** Nesting *)

Definition style_eqb (a b : style) : bool := match a, b with Bold, Bold | Italic, Italic => true | _, _ => false end.
Definition step (m : marker) (open : option (list style)) : option (list style) :=
  match open with
  | None => None
  | Some open =>
      match m with
      | Open k => Some (k :: open)
      | Close k => match open with k' :: open' => if style_eqb k k' then Some open' else None | [] => None end
      end
  end.
Definition run (ms : list marker) (open : option (list style)) : option (list style) := fold_left (fun o m => step m o) ms open.

Lemma run_app : forall a b o, run (a ++ b) o = run b (run a o).
Proof. intros. unfold run. apply fold_left_app. Qed.
Lemma run_none : forall a, run a None = None.
Proof. induction a; auto. Qed.

(** The rest of a sequence closes the open styles. *)
Inductive closing : list style -> list marker -> Prop :=
| closing_nil : forall a, nested_markers a -> closing [] a
| closing_cons : forall k open a b, nested_markers a -> closing open b -> closing (k :: open) (a ++ Close k :: b).

Lemma nested_app : forall a b, nested_markers a -> nested_markers b -> nested_markers (a ++ b).
Proof.
  intros a b H. induction H as [|k x y Hx IHx Hy IHy]; intros Hb; auto. cbn [app]. rewrite <- app_assoc. cbn [app].
  apply nested_pair; auto.
Qed.

Lemma run_closing : forall ms open, run ms (Some open) = Some [] -> closing open ms.
Proof.
  induction ms as [|m ms IH]; intros open H.
  - cbn in H. injection H as ->. apply closing_nil. constructor.
  - unfold run in H. cbn [fold_left] in H. fold (run ms (step m (Some open))) in H. destruct m as [k|k]; cbn [step] in H.
    + apply IH in H. inversion H as [|? ? a b Ha Hb]; subst. destruct Hb as [b Hb|k2 open b1 b2 Hb1 Hb2].
      * apply closing_nil. apply nested_pair; auto.
      * change (Open k :: a ++ Close k :: b1 ++ Close k2 :: b2) with ((Open k :: a ++ [Close k]) ++ b1 ++ Close k2 :: b2 ) || idtac.
        replace (Open k :: a ++ Close k :: b1 ++ Close k2 :: b2) with ((Open k :: a ++ Close k :: b1) ++ Close k2 :: b2).
        2:{ cbn [app]. rewrite <- app_assoc. reflexivity. }
        apply closing_cons; auto. apply nested_pair; auto.
    + destruct open as [|k' open]; [rewrite run_none in H; discriminate|]. destruct (style_eqb k k') eqn:E; [|rewrite run_none in H; discriminate].
      assert (k = k') by (destruct k, k'; auto; discriminate). subst k'. apply IH in H.
      apply (closing_cons k open [] ms); auto. constructor.
Qed.

Lemma run_nested : forall ms, run ms (Some []) = Some [] -> nested_markers ms.
Proof. intros ms H. apply run_closing in H. inversion H. auto. Qed.

(** ** The counters *)

Definition kcount (k : style) (open : list style) : Z := Z.of_nat (length (filter (style_eqb k) open)).

Definition counters (stack : list BoldItalicStackItem) (n : Z * Z) : Z * Z :=
  fold_left (fun n item =>
    match itemType item with
    | BOLD_OPEN => (fst n, snd n + 1)
    | BOLD_CLOSE => (fst n, snd n - 1)
    | ITALIC_OPEN => (fst n + 1, snd n)
    | ITALIC_CLOSE => (fst n - 1, snd n)
    end)%Z stack n.

Definition types (stack : list BoldItalicStackItem) : list marker := map (fun i => of_type (itemType i)) stack.

Lemma counters_cons : forall i stack n, counters (i :: stack) n = counters stack (counters [i] n).
Proof. reflexivity. Qed.

Lemma counters_swap : forall stack a b, counters stack (a, b) = (fst (counters stack (0, 0)%Z) + a, snd (counters stack (0, 0)%Z) + b)%Z.
Proof.
  induction stack as [|i stack IH]; intros a b; [reflexivity|]. rewrite !(counters_cons i stack).
  unfold counters at 2 4 6. cbn [fold_left]. destruct (itemType i); cbn [fst snd];
    rewrite (IH _ _); symmetry; rewrite (IH _ _); cbn [fst snd]; f_equal; lia.
Qed.

(** [stack] has the latest item first *)
Definition state (stack : list BoldItalicStackItem) : option (list style) := run (types (rev stack)) (Some []).

Lemma types_app : forall a b, types (a ++ b) = types a ++ types b.
Proof. intros. apply map_app. Qed.

Lemma state_cons : forall i stack, state (i :: stack) = step (of_type (itemType i)) (state stack).
Proof. intros. unfold state. cbn [rev]. rewrite types_app, run_app. reflexivity. Qed.

Lemma counters_state : forall stack open, state stack = Some open -> counters stack (0, 0)%Z = (kcount Italic open, kcount Bold open).
Proof.
  induction stack as [|i stack IH]; intros open H.
  - cbn in H. injection H as <-. reflexivity.
  - rewrite state_cons in H. destruct (state stack) as [o|]; [|discriminate]. specialize (IH o eq_refl).
    rewrite counters_cons.
    assert (E : forall a b, counters stack (a, b)%Z = (kcount Italic o + a, kcount Bold o + b)%Z).
    { intros a b. rewrite counters_swap, IH. reflexivity. }
    cbn [counters fold_left] . destruct i as [t x y]. cbn [itemType] in *.
    destruct t; cbn [fst snd of_type step] in *; rewrite E; unfold kcount.
    + injection H as <-. cbn [filter style_eqb length]. f_equal; lia.
    + destruct o as [|[] o]; try discriminate. injection H as <-. cbn [filter style_eqb length]. f_equal; lia.
    + injection H as <-. cbn [filter style_eqb length]. f_equal; lia.
    + destruct o as [|[] o]; try discriminate. injection H as <-. cbn [filter style_eqb length]. f_equal; lia.
Qed.

Lemma odd_state : forall stack open, state stack = Some open -> hasOddNumberOfItems stack = true <-> open = [].
Proof.
  intros stack open H. unfold hasOddNumberOfItems. fold (counters stack (0, 0)%Z). rewrite (counters_state stack open H).
  cbn [fst snd]. unfold kcount. rewrite andb_true_iff, !Z.eqb_eq. split.
  - intros [A B]. destruct open as [|[] open]; auto; cbn [filter style_eqb length] in *; lia.
  - intros ->. auto.
Qed.

(** ** Parts *)

Fixpoint items_at (i : nat) (l : list part) : list BoldItalicStackItem :=
  match l with
  | [] => []
  | Text _ :: l => items_at (S i) l
  | Mark m q :: l => mkItem (type_of m) i (length q) :: items_at (i + length q) l
  end.
Definition befores (l : list part) : str := concat (map before l).
Definition afters (l : list part) : str := concat (map after l).

Lemma items_at_app : forall a b i, items_at i (a ++ b) = items_at i a ++ items_at (i + length (befores a)) b.
Proof.
  unfold befores. induction a as [|[c|m q] a IH]; intros b i; cbn [app items_at map concat before length].
  - rewrite Nat.add_0_r. auto.
  - rewrite IH. f_equal. f_equal. lia.
  - rewrite IH, app_length. f_equal. f_equal. f_equal. lia.
Qed.
Lemma befores_app : forall a b, befores (a ++ b) = befores a ++ befores b.
Proof. intros. unfold befores. rewrite map_app, concat_app. auto. Qed.
Lemma afters_app : forall a b, afters (a ++ b) = afters a ++ afters b.
Proof. intros. unfold afters. rewrite map_app, concat_app. auto. Qed.
Lemma markers_app : forall a b, markers (a ++ b) = markers a ++ markers b.
Proof. intros. apply flat_map_app. Qed.
Lemma of_type_of : forall m, of_type (type_of m) = m.
Proof. intros [[]|[]]; reflexivity. Qed.
Lemma types_items : forall l i, types (items_at i l) = markers l.
Proof.
  induction l as [|[c|m q] l IH]; intros i; auto.
  - cbn [items_at]. rewrite IH. auto.
  - cbn [items_at]. change (of_type (type_of m) :: types (items_at (i + length q) l) = m :: markers l). rewrite of_type_of, IH. auto.
Qed.
Definition chars (t : str) : list part := map Text t.
Lemma befores_chars : forall t, befores (chars t) = t.
Proof. induction t; auto. unfold befores in *. cbn. f_equal. auto. Qed.
Lemma afters_chars : forall t, afters (chars t) = t.
Proof. induction t; auto. unfold afters in *. cbn. f_equal. auto. Qed.
Lemma markers_chars : forall t, markers (chars t) = [].
Proof. induction t; auto. Qed.
Lemma items_chars : forall t i, items_at i (chars t) = [].
Proof. induction t; cbn; auto. Qed.

(** Inserting *)
Lemma marker_long : forall m, 20 <= length (marker_text m).
Proof. intros [[]|[]]; cbn; lia. Qed.

Lemma insert_app : forall l pre pre' tail more k, Forall replaced l -> length pre <= length pre' ->
  length (pre ++ befores l) <= length (pre' ++ afters l) /\
  exists k', insert_markers (items_at (length pre) l ++ more) (pre' ++ befores l ++ tail) (length pre' - length pre) k =
  insert_markers more (pre' ++ afters l ++ tail) (length (pre' ++ afters l) - length (pre ++ befores l)) k'.
Proof.
  induction l as [|p l IH]; intros pre pre' tail more k F L.
  - cbn. rewrite !app_nil_r. split; [lia|]. exists k. auto.
  - inversion F as [|? ? R F']; subst. destruct p as [c|m q].
    + cbn [items_at]. change (befores (Text c :: l)) with ([c] ++ befores l). change (afters (Text c :: l)) with ([c] ++ afters l).
      assert (LL : length (pre ++ [c]) <= length (pre' ++ [c])) by (rewrite !app_length; lia).
      destruct (IH (pre ++ [c]) (pre' ++ [c]) tail more k F' LL) as (A & k' & B).
      split; [rewrite <- !app_assoc in A; exact A|]. exists k'. rewrite <- !app_assoc in B. cbn [app] in *.
      replace (length (pre ++ [c])) with (S (length pre)) in B by (rewrite app_length; cbn; lia).
      replace (length (pre' ++ [c]) - S (length pre)) with (length pre' - length pre) in B by (rewrite app_length; cbn; lia). exact B.
    + cbn [items_at app insert_markers item_index item_length itemType].
      change (befores (Mark m q :: l)) with (q ++ befores l). change (afters (Mark m q :: l)) with (marker_text m ++ afters l).
      replace (length pre + (length pre' - length pre)) with (length pre') by lia.
      rewrite (firstn_app (length pre')), firstn_all, Nat.sub_diag. cbn [firstn]. rewrite app_nil_r.
      assert (SK : skipn (length pre' + length q) (pre' ++ (q ++ befores l) ++ tail) = befores l ++ tail).
      { rewrite <- app_assoc, (app_assoc pre' q), skipn_app, skipn_all2 by (rewrite app_length; lia). rewrite app_length, Nat.sub_diag. reflexivity. }
      rewrite SK, marker_text_of.
      assert (Lq : length q <= 3). { destruct R as [->| ->]; [cbn; lia|]. destruct (style_of m); cbn; lia. }
      pose proof (marker_long m) as Lm.
      assert (LL : length (pre ++ q) <= length (pre' ++ marker_text m)) by (rewrite !app_length; lia).
      destruct (IH (pre ++ q) (pre' ++ marker_text m) tail more (length (pre' ++ marker_text m)) F' LL) as (A & k' & B).
      split; [rewrite <- !app_assoc in A; exact A|]. exists k'. rewrite <- !app_assoc in *. rewrite !app_length in *.
      replace (length pre' - length pre + (length pre' + (length (marker_text m) + (length (befores l) + length tail)) -
        (length pre' + (length q + (length (befores l) + length tail)))))
        with (length pre' + length (marker_text m) - (length pre + length q)) by lia. exact B.
Qed.

Lemma insert_spec : forall l m q pre tail k, Forall replaced (l ++ [Mark m q]) ->
  insert_markers (items_at (length pre) (l ++ [Mark m q])) (pre ++ befores (l ++ [Mark m q]) ++ tail) 0 k =
  (pre ++ afters (l ++ [Mark m q]) ++ tail, length (pre ++ afters (l ++ [Mark m q]))).
Proof.
  intros l m q pre tail k F. apply Forall_app in F as [F1 F2]. rewrite items_at_app, befores_app, afters_app.
  destruct (insert_app l pre pre (befores [Mark m q] ++ tail) (items_at (length pre + length (befores l)) [Mark m q]) k F1 (le_n _)) as (A & k' & B).
  rewrite Nat.sub_diag in B. rewrite <- !app_assoc. rewrite B. clear B.
  cbn [items_at insert_markers item_index item_length itemType].
  change (befores [Mark m q]) with (q ++ []). change (afters [Mark m q]) with (marker_text m ++ []). rewrite !app_nil_r.
  replace (length pre + length (befores l) + (length (pre ++ afters l) - length (pre ++ befores l))) with (length (pre ++ afters l))
    by (rewrite !app_length in *; lia).
  rewrite (app_assoc pre (afters l)), (firstn_app (length (pre ++ afters l))), firstn_all, Nat.sub_diag. cbn [firstn]. rewrite app_nil_r.
  assert (SK : skipn (length (pre ++ afters l) + length q) ((pre ++ afters l) ++ q ++ tail) = tail).
  { rewrite (app_assoc _ q), skipn_app, skipn_all2 by (rewrite (app_length _ q); lia). rewrite (app_length _ q), Nat.sub_diag. reflexivity. }
  rewrite SK, marker_text_of, <- !app_assoc. reflexivity.
Qed.

(** ** The search *)

Definition inv (stack : list BoldItalicStackItem) (bo it : bool) (os : list style) : Prop :=
  state stack = Some os /\ NoDup os /\ bo = existsb (style_eqb Bold) os /\ it = existsb (style_eqb Italic) os /\
  match os with
  | k :: _ :: _ => exists i stack', stack = i :: stack' /\ of_type (itemType i) = Open k
  | _ => True
  end.

Lemma inv_start : inv [] false false [].
Proof. repeat split; auto. constructor. Qed.

Lemma last_bold_state : forall stack os, state stack = Some os -> last_is_bold_open stack = true -> exists os', os = Bold :: os'.
Proof.
  intros [|i stack] os H L; [discriminate|]. rewrite state_cons in H. cbn [last_is_bold_open] in L. destruct (itemType i); try discriminate L.
  cbn [of_type step] in H. destruct (state stack); [|discriminate]. injection H as <-. eauto.
Qed.
Lemma last_italic_state : forall stack os, state stack = Some os -> last_is_italic_open stack = true -> exists os', os = Italic :: os'.
Proof.
  intros [|i stack] os H L; [discriminate|]. rewrite state_cons in H. cbn [last_is_italic_open] in L. destruct (itemType i); try discriminate L.
  cbn [of_type step] in H. destruct (state stack); [|discriminate]. injection H as <-. eauto.
Qed.

Lemma os_cases : forall os : list style, NoDup os -> os = [] \/ os = [Bold] \/ os = [Italic] \/ os = [Bold; Italic] \/ os = [Italic; Bold].
Proof.
  intros [|[] [|[] [|[] os]]] N; auto; exfalso; inversion N as [|? ? N1 N']; subst; cbn [In] in N1; try tauto.
  all: inversion N' as [|? ? N2 N'']; subst; cbn [In] in N2; tauto.
Qed.

(** The items for quotes of style [k], with repair if needed *)
Definition toggle_parts (os : list style) (k : style) : list part :=
  match toggle os k with
  | ([m], _) => [Mark m (quotes_of k)]
  | ([m1; m; m2], _) => [Mark m1 []; Mark m (quotes_of k); Mark m2 []]
  | _ => []
  end.
Definition crosses (os : list style) (k : style) : bool :=
  match os with [k1; k2] => style_eqb k k2 | _ => false end.

Lemma toggle_inv : forall stack bo it os k i, inv stack bo it os ->
  inv (rev (items_at i (toggle_parts os k)) ++ stack) (if style_eqb k Bold then negb bo else bo) (if style_eqb k Italic then negb it else it) (snd (toggle os k)).
Proof.
  intros stack bo it os k i (S & N & -> & -> & T).
  destruct (os_cases os N) as [->|[->|[->|[->| ->]]]]; destruct k; cbn -[state];
    (unfold inv; rewrite ?state_cons, S; cbn [of_type step style_eqb itemType snd toggle];
     repeat split; cbn [existsb style_eqb orb negb]; auto; repeat constructor; cbn [In]; try tauto; try (intros [K|[]]; discriminate); eauto).
Qed.

Lemma toggle_befores : forall os k, NoDup os -> befores (toggle_parts os k) = quotes_of k /\ Forall replaced (toggle_parts os k) /\
  exists l m q, toggle_parts os k = l ++ [Mark m q].
Proof.
  intros os k N. destruct (os_cases os N) as [->|[->|[->|[->| ->]]]]; destruct k; (split; [reflexivity|split; [repeat constructor; cbn; auto|]]);
  first [eexists [], _, _; reflexivity | eexists [_; _], _, _; reflexivity].
Qed.

Lemma italic_cross : forall stack bo it os, inv stack bo it os -> last_is_bold_open stack && it = crosses os Italic.
Proof.
  intros stack bo it os (S & N & -> & -> & T). destruct (last_is_bold_open stack) eqn:L.
  - destruct (last_bold_state stack os S L) as (os' & ->). destruct (os_cases _ N) as [E|[E|[E|[E|E]]]]; inversion E; reflexivity.
  - cbn [andb]. destruct (os_cases _ N) as [->|[->|[->|[->| ->]]]]; auto. cbn in T. destruct T as (i & st & -> & O).
    cbn [last_is_bold_open] in L. destruct (itemType i); discriminate.
Qed.
Lemma bold_cross : forall stack bo it os, inv stack bo it os -> last_is_italic_open stack && bo = crosses os Bold.
Proof.
  intros stack bo it os (S & N & -> & -> & T). destruct (last_is_italic_open stack) eqn:L.
  - destruct (last_italic_state stack os S L) as (os' & ->). destruct (os_cases _ N) as [E|[E|[E|[E|E]]]]; inversion E; reflexivity.
  - cbn [andb]. destruct (os_cases _ N) as [->|[->|[->|[->| ->]]]]; auto. cbn in T. destruct T as (i & st & -> & O).
    cbn [last_is_italic_open] in L. destruct (itemType i); discriminate.
Qed.

Definition push (i : nat) (os : list style) (k : style) (stack : list BoldItalicStackItem) : list BoldItalicStackItem :=
  rev (items_at i (toggle_parts os k)) ++ stack.

Lemma push_italic : forall stack bo it os i, inv stack bo it os ->
  (if crosses os Italic then mkItem BOLD_OPEN (i + 2) 0 :: mkItem (if it then ITALIC_CLOSE else ITALIC_OPEN) i 2 :: mkItem BOLD_CLOSE i 0 :: stack
   else mkItem (if it then ITALIC_CLOSE else ITALIC_OPEN) i 2 :: stack) = push i os Italic stack.
Proof.
  intros stack bo it os i (S & N & -> & -> & T). unfold push. destruct (os_cases _ N) as [->|[->|[->|[->| ->]]]]; cbn; rewrite ?Nat.add_0_r; reflexivity.
Qed.
Lemma push_bold : forall stack bo it os i, inv stack bo it os ->
  (if crosses os Bold then mkItem ITALIC_OPEN (i + 3) 0 :: mkItem (if bo then BOLD_CLOSE else BOLD_OPEN) i 3 :: mkItem ITALIC_CLOSE i 0 :: stack
   else mkItem (if bo then BOLD_CLOSE else BOLD_OPEN) i 3 :: stack) = push i os Bold stack.
Proof.
  intros stack bo it os i (S & N & -> & -> & T). unfold push. destruct (os_cases _ N) as [->|[->|[->|[->| ->]]]]; cbn; rewrite ?Nat.add_0_r; reflexivity.
Qed.

Notation tok := tokenizeBoldAndItalic.

Lemma tok_eq : forall c s1 aq i stack rep bo it os, inv stack bo it os ->
  tok (c :: s1) aq i stack rep bo it =
  if has_prefix !"''" (c :: s1) then
    match (if crosses os Italic && negb rep then None else tok (skipn 2 (c :: s1)) true (i + 2) (push i os Italic stack) rep bo (negb it)) with
    | Some x => Some x
    | None =>
        if has_prefix !"'''" (c :: s1) then
          if crosses os Bold && negb rep then None else tok (skipn 3 (c :: s1)) true (i + 3) (push i os Bold stack) rep (negb bo) it
        else None
    end
  else if aq && Ascii.eqb c quote then None
  else if (0 <? length stack) && hasOddNumberOfItems stack then Some stack
  else tok s1 (Ascii.eqb c quote) (S i) stack rep bo it.
Proof.
  intros c s1 aq i stack rep bo it os H. cbn [tokenizeBoldAndItalic].
  rewrite (italic_cross _ _ _ _ H), (bold_cross _ _ _ _ H).
  destruct (has_prefix !"''" (c :: s1)) eqn:P2.
  - assert (E2 : exists s2, c :: s1 = quote :: quote :: s2). { apply has_prefix_spec in P2 as (s2 & ->). exists s2. auto. }
    destruct E2 as (s2 & E2). injection E2 as -> ->. change (skipn 2 (quote :: quote :: s2)) with s2.
    assert (B : (if has_prefix !"'''" (quote :: quote :: s2) then
        if crosses os Bold then
          if rep then
            match s2 with [] => None | _ :: s3 => tok s3 true (i + 3) (mkItem ITALIC_OPEN (i + 3) 0 :: mkItem (if bo then BOLD_CLOSE else BOLD_OPEN) i 3 :: mkItem ITALIC_CLOSE i 0 :: stack) rep (negb bo) it end
          else None
        else match s2 with [] => None | _ :: s3 => tok s3 true (i + 3) (mkItem (if bo then BOLD_CLOSE else BOLD_OPEN) i 3 :: stack) rep (negb bo) it end
      else if aq && Ascii.eqb quote quote then None else None) =
      if has_prefix !"'''" (quote :: quote :: s2) then
          if crosses os Bold && negb rep then None else tok (skipn 3 (quote :: quote :: s2)) true (i + 3) (push i os Bold stack) rep (negb bo) it
        else None).
    { destruct (has_prefix !"'''" (quote :: quote :: s2)) eqn:P3; [|destruct (aq && Ascii.eqb quote quote); auto].
      destruct s2 as [|z s3]; [discriminate P3|]. change (skipn 3 (quote :: quote :: z :: s3)) with s3.
      pose proof (push_bold stack bo it os i H) as PB. destruct (crosses os Bold), rep; cbn [andb negb]; rewrite ?PB; auto. }
    pose proof (push_italic stack bo it os i H) as PI.
    destruct (crosses os Italic) eqn:CI.
    + destruct rep; cbn [andb negb].
      * rewrite PI. destruct (tok s2 true (i + 2) (push i os Italic stack) true bo (negb it)); auto.
      * destruct (has_prefix !"'''" (quote :: quote :: s2)) eqn:P3; auto.
    + cbn [andb]. rewrite PI. destruct (tok s2 true (i + 2) (push i os Italic stack) rep bo (negb it)); auto.
  - assert (P3 : has_prefix !"'''" (c :: s1) = false).
    { destruct (has_prefix !"'''" (c :: s1)) eqn:P3; auto. apply has_prefix_spec in P3 as (t & P3). rewrite P3 in P2. discriminate P2. }
    rewrite P3. destruct (aq && Ascii.eqb c quote); auto.
Qed.

Lemma tok_nil : forall aq i stack rep bo it, tok [] aq i stack rep bo it = if hasOddNumberOfItems stack then Some stack else None.
Proof. reflexivity. Qed.

Lemma items_snoc : forall i a b stack, rev (items_at (i + length (befores a)) b) ++ rev (items_at i a) ++ stack = rev (items_at i (a ++ b)) ++ stack.
Proof. intros. rewrite items_at_app, rev_app_distr, <- app_assoc. auto. Qed.

(** Markers are only inserted next to quotes that are replaced *)
Inductive grouped : list part -> Prop :=
| grouped_nil : grouped []
| grouped_text : forall c l, grouped l -> grouped (Text c :: l)
| grouped_toggle : forall os k l, NoDup os -> grouped l -> grouped (toggle_parts os k ++ l).

Lemma grouped_app : forall a b, grouped a -> grouped b -> grouped (a ++ b).
Proof. induction 1; intros; cbn [app]; auto; [constructor; auto|]. rewrite <- app_assoc. constructor; auto. Qed.

Lemma grouped_chars : forall t, grouped (chars t).
Proof. induction t; constructor; auto. Qed.

Lemma grouped_replaced : forall l, grouped l -> Forall replaced l.
Proof. induction 1; auto; [constructor; auto; exact I|]. apply Forall_app. split; auto. apply (toggle_befores os k); auto. Qed.

Theorem tok_spec : forall n s aq i stack rep bo it os stack', length s <= n -> inv stack bo it os -> tok s aq i stack rep bo it = Some stack' ->
  exists l tail, s = befores l ++ tail /\ grouped l /\ stack' = rev (items_at i l) ++ stack /\ state stack' = Some [] /\
    (l = [] \/ exists l0 m q, l = l0 ++ [Mark m q]) /\ (has_prefix !"''" s = true -> 2 <= length (befores l)).
Proof.
  induction n as [|n IH]; intros s aq i stack rep bo it os stack' L H E.
  - destruct s; [|cbn in L; lia]. rewrite tok_nil in E. destruct (hasOddNumberOfItems stack) eqn:O; [|discriminate]. injection E as <-.
    exists [], []. repeat split; auto; [constructor| |discriminate]. destruct H as (S & _). apply (odd_state _ _ S) in O. subst. auto.
  - destruct s as [|c s1].
    { rewrite tok_nil in E. destruct (hasOddNumberOfItems stack) eqn:O; [|discriminate]. injection E as <-.
      exists [], []. repeat split; auto; [constructor| |discriminate]. destruct H as (S & _). apply (odd_state _ _ S) in O. subst. auto. }
    rewrite (tok_eq _ _ _ _ _ _ _ _ os H) in E.
    assert (N : NoDup os) by apply H.
    assert (T : forall k (s2 : str) bo' it', c :: s1 = quotes_of k ++ s2 -> bo' = (if style_eqb k Bold then negb bo else bo) ->
      it' = (if style_eqb k Italic then negb it else it) -> tok s2 true (i + length (quotes_of k)) (push i os k stack) rep bo' it' = Some stack' ->
      exists l tail, c :: s1 = befores l ++ tail /\ grouped l /\ stack' = rev (items_at i l) ++ stack /\ state stack' = Some [] /\
        (l = [] \/ exists l0 m q, l = l0 ++ [Mark m q]) /\ (has_prefix !"''" (c :: s1) = true -> 2 <= length (befores l))).
    { intros k s2 bo' it' Es -> -> Et. destruct (toggle_befores os k N) as (B & R & (l0 & m & q & El)).
      destruct (IH s2 true (i + length (quotes_of k)) (push i os k stack) rep (if style_eqb k Bold then negb bo else bo) (if style_eqb k Italic then negb it else it) (snd (toggle os k)) stack') as (l & tail & -> & F & -> & S & Z & _); auto.
      - assert (length (c :: s1) = length (quotes_of k) + length s2) by (rewrite Es, app_length; auto).
        cbn [length] in *. destruct k; cbn [quotes_of length] in *; lia.
      - apply (toggle_inv stack bo it os k i H).
      - exists (toggle_parts os k ++ l), tail. split; [rewrite Es, befores_app, B, <- app_assoc; auto|].
        split; [constructor; auto|]. unfold push. rewrite <- items_snoc, B. split; auto. split; [exact S|]. split; [|intros _; rewrite befores_app, B, app_length; destruct k; cbn; lia]. right.
        destruct Z as [->|(l1 & m1 & q1 & ->)].
        + rewrite app_nil_r. eauto.
        + exists (toggle_parts os k ++ l1), m1, q1. rewrite app_assoc. auto. }
    destruct (has_prefix !"''" (c :: s1)) eqn:P2.
    + destruct (if crosses os Italic && negb rep then None else _) as [x|] eqn:EI.
      * destruct (crosses os Italic && negb rep); [discriminate|]. injection E as ->.
        apply has_prefix_spec in P2 as (s2 & Es). apply (T Italic s2 bo (negb it)); auto. rewrite Es in EI. exact EI.
      * destruct (has_prefix !"'''" (c :: s1)) eqn:P3; [|discriminate]. destruct (crosses os Bold && negb rep); [discriminate|].
        apply has_prefix_spec in P3 as (s3 & Es). apply (T Bold s3 (negb bo) it); auto. rewrite Es in E. exact E.
    + destruct (aq && Ascii.eqb c quote); [discriminate|].
      destruct ((0 <? length stack) && hasOddNumberOfItems stack) eqn:O.
      * injection E as <-. apply andb_true_iff in O as [_ O]. exists [], (c :: s1). repeat split; auto; [constructor| |congruence].
        destruct H as (S & _). apply (odd_state _ _ S) in O. subst. auto.
      * destruct (IH s1 (Ascii.eqb c quote) (S i) stack rep bo it os stack') as (l & tail & -> & F & -> & S & Z & _); auto; [cbn in L; lia|].
        destruct Z as [->|(l0 & m & q & ->)].
        -- exists [], (c :: tail). repeat split; auto. congruence.
        -- exists (Text c :: l0 ++ [Mark m q]), tail. repeat split; auto.
           ++ constructor; auto.
           ++ right. exists (Text c :: l0), m, q. auto.
           ++ congruence.
Qed.

Corollary block_spec : forall s aq i rep stack, tok s aq i [] rep false false = Some stack -> has_prefix !"''" s = true ->
  exists l m q tail, s = befores (l ++ [Mark m q]) ++ tail /\ grouped (l ++ [Mark m q]) /\ rev stack = items_at i (l ++ [Mark m q]) /\
    nested_markers (markers (l ++ [Mark m q])) /\ 2 <= length (befores (l ++ [Mark m q])).
Proof.
  intros s aq i rep stack E P.
  destruct (tok_spec (length s) s aq i [] rep false false [] stack (le_n _) inv_start E) as (l & tail & Es & F & -> & S & Z & Q).
  rewrite app_nil_r in *. specialize (Q P).
  destruct Z as [->|(l0 & m & q & ->)]; [cbn in Q; lia|].
  exists l0, m, q, tail. repeat split; auto.
  - rewrite rev_involutive. auto.
  - unfold state in S. rewrite rev_involutive, types_items in S. apply run_nested. auto.
Qed.

(** ** The whole text *)

Lemma skipn_pre : forall (a b : str), skipn (length a) (a ++ b) = b.
Proof. intros. rewrite skipn_app, skipn_all, Nat.sub_diag. auto. Qed.

Theorem parse_go : forall fuel pre s, length s < fuel ->
  exists l, parseBoldAndItalic_go fuel (pre ++ s) (length pre) = Ok (pre ++ afters l) /\ s = befores l /\ grouped l /\ nested_markers (markers l).
Proof.
  induction fuel as [|fuel IH]; intros pre s L; [lia|]. cbn [parseBoldAndItalic_go]. rewrite skipn_pre.
  assert (D : exists l, Ok (pre ++ s) = Ok (pre ++ afters l) /\ s = befores l /\ grouped l /\ nested_markers (markers l)).
  { exists (chars s). rewrite afters_chars, befores_chars, markers_chars. repeat split; auto; [apply grouped_chars|constructor]. }
  destruct (index !"''" s) as [k|] eqn:K; [|exact D].
  apply index_some_split in K as (a & b & Es & <- & _ & _).
  assert (Es' : skipn (length pre + length a) (pre ++ s) = !"''" ++ b).
  { rewrite Es, app_assoc, <- app_length, skipn_pre. auto. }
  rewrite Es'. set (aq := match length pre + length a with 0 => false | S i => _ end). clearbody aq.
  assert (Q : has_prefix !"''" (!"''" ++ b) = true) by reflexivity.
  assert (B : forall rep stack, tok (!"''" ++ b) aq (length pre + length a) [] rep false false = Some stack ->
    exists l, (let (content, idx) := insert_markers (rev stack) (pre ++ s) 0 (length pre + length a) in parseBoldAndItalic_go fuel content idx) =
      Ok (pre ++ afters l) /\ s = befores l /\ grouped l /\ nested_markers (markers l)).
  { intros rep stack T. destruct (block_spec _ _ _ _ _ T Q) as (l & m & q & tail & Et & F & -> & N & Lb).
    rewrite Es, Et. rewrite <- app_length, (app_assoc pre a), insert_spec by (apply grouped_replaced; auto).
    rewrite (app_assoc (pre ++ a) (afters (l ++ [Mark m q]))). 
    destruct (IH ((pre ++ a) ++ afters (l ++ [Mark m q])) tail) as (l2 & -> & -> & F2 & N2).
    { rewrite Es, Et, !app_length in L. lia. }
    exists (chars a ++ (l ++ [Mark m q]) ++ l2). rewrite !afters_app, !befores_app, !markers_app, afters_chars, befores_chars, markers_chars.
    rewrite <- !app_assoc. repeat split; auto.
    - apply grouped_app; [apply grouped_chars|]. rewrite app_assoc. apply grouped_app; auto.
    - cbn [app]. rewrite app_assoc, <- markers_app. apply nested_app; auto. }
  destruct (tok (!"''" ++ b) aq (length pre + length a) [] false false false) as [stack|] eqn:T1; [eapply B; eauto|].
  destruct (tok (!"''" ++ b) aq (length pre + length a) [] true false false) as [stack|] eqn:T2; [eapply B; eauto|exact D].
Qed.

Theorem parse_grouped : forall content, exists l,
  parseBoldAndItalic content = Ok (afters l) /\ content = befores l /\ grouped l.
Proof.
  intros content. destruct (parse_go (S (length content)) [] content (Nat.lt_succ_diag_r _)) as (l & E & B & G & _). exists l. auto.
Qed.

Theorem parse_spec : forall content, exists l,
  parseBoldAndItalic content = Ok (concat (map after l)) /\ content = concat (map before l) /\ Forall replaced l /\ nested_markers (markers l).
Proof.
  intros content. destruct (parse_go (S (length content)) [] content (Nat.lt_succ_diag_r _)) as (l & E & B & G & N). exists l.
  repeat split; auto. apply grouped_replaced. auto.
Qed.

Corollary parse_enough : forall content, parseBoldAndItalic content <> OutOfFuel.
Proof. intros content. destruct (parse_spec content) as (l & -> & _). discriminate. Qed.

(** ** Separated quotes *)

Lemma plain_first : forall c t, plain (c :: t) -> c <> quote.
Proof. intros c t (_ & P & _) ->. apply (P t). reflexivity. Qed.

Lemma plain_without : forall t, ~ In quote t -> plain t.
Proof.
  intros t H. split; [|split]; [intros a b ->|intros a ->|intros a ->]; apply H; [apply in_or_app; right; left; auto|left; auto|apply in_or_app; right; left; auto].
Qed.
Lemma plain_intro : forall t, contains !"''" t = false -> hd nl_char t <> quote -> last t nl_char <> quote -> plain t.
Proof.
  intros t C F L. split; [|split].
  - intros a b ->. assert (X : contains !"''" (a ++ !"''" ++ b) = true) by (apply contains_spec; exists a, b; reflexivity). rewrite X in C. discriminate.
  - intros a ->. apply F. reflexivity.
  - intros a ->. apply L. apply last_last.
Qed.
Lemma plain_app : forall a b, plain a -> plain b -> plain (a ++ b).
Proof.
  intros a b A B. destruct a as [|a0 a']; [exact B|]. destruct b as [|b0 b']; [rewrite app_nil_r; exact A|].
  set (a := a0 :: a') in *. set (b := b0 :: b') in *. destruct A as (A1 & A2 & A3), B as (B1 & B2 & B3). split; [|split].
  - intros x y E. apply app_eq_app in E as (z & [[E1 E2]|[E1 E2]]).
    + subst b. destruct z as [|c z]; [apply (B2 (quote :: y)); symmetry; exact E2|]. destruct z as [|d z].
      * injection E2 as <- E2. apply (A3 x). exact E1.
      * injection E2 as <- <- E2. apply (A1 x z). exact E1.
    + apply (B1 z y). exact E2.
  - intros x E. unfold a in E. injection E as E _. apply (A2 a'). unfold a. rewrite E. reflexivity.
  - intros x E. destruct (exists_last (l := b) ltac:(discriminate)) as (b1 & c & Eb). rewrite Eb, app_assoc in E. apply app_inj_tail in E as [_ ->]. apply (B3 b1). exact Eb.
Qed.

(** Lone apostrophes: [aq] says that there is one before the text *)
Definition lone (aq : bool) (t : str) : Prop :=
  (forall a b, t <> a ++ !"''" ++ b) /\ (aq = true -> forall a, t <> !"'" ++ a) /\ (forall a, t <> a ++ !"'").
Lemma plain_lone : forall aq t, plain t -> lone aq t.
Proof. intros aq t (A & B & C). split; auto. Qed.
Lemma lone_cons : forall aq c t, lone aq (c :: t) -> (aq = true -> c <> quote) /\ (c = quote -> exists d t', t = d :: t' /\ d <> quote) /\ lone (Ascii.eqb c quote) t.
Proof.
  intros aq c t (A & B & C). split; [intros Q ->; apply (B Q t); reflexivity|].
  assert (X : c = quote -> forall d t', t = d :: t' -> d <> quote) by (intros -> d t' -> ->; apply (A [] t'); reflexivity).
  split.
  - intros ->. destruct t as [|d t]; [exfalso; apply (C []); reflexivity|]. exists d, t. split; auto. apply (X eq_refl d t). reflexivity.
  - split; [intros a b ->; apply (A (c :: a) b); reflexivity|]. split.
    + intros Q a E. apply Ascii.eqb_eq in Q. apply (X Q _ _ E). reflexivity.
    + intros a ->. apply (C (c :: a)). reflexivity.
Qed.

Lemma no_quotes : forall c s, c <> quote -> has_prefix !"''" (c :: s) = false.
Proof. intros c s N. cbn [has_prefix]. destruct (Ascii.eqb_spec "'" c); auto. exfalso. apply N. auto. Qed.

Lemma not_odd : forall stack bo it os, inv stack bo it os -> os <> [] -> hasOddNumberOfItems stack = false.
Proof.
  intros stack bo it os (S & _) N. destruct (hasOddNumberOfItems stack) eqn:O; auto. apply (odd_state _ _ S) in O. congruence.
Qed.

Lemma lone_quote : forall c s t aq, lone aq (c :: t) -> has_prefix !"''" (c :: t ++ s) = false.
Proof.
  intros c s t aq L. apply lone_cons in L as (_ & Q & _). destruct (Ascii.eqb_spec c quote) as [->|N]; [|apply no_quotes; auto].
  destruct (Q eq_refl) as (d & t' & -> & D). cbn [has_prefix app]. destruct (Ascii.eqb_spec "'" d) as [<-|_]; [contradiction D; reflexivity|]. rewrite andb_false_r || reflexivity; reflexivity.
Qed.

Lemma tok_plain : forall t s aq i stack rep bo it os, inv stack bo it os -> os <> [] -> lone aq t ->
  tok (t ++ s) aq i stack rep bo it = tok s (match t with [] => aq | _ => false end) (i + length t) stack rep bo it.
Proof.
  induction t as [|c t IH]; intros s aq i stack rep bo it os H N P.
  - cbn [app length]. rewrite Nat.add_0_r. auto.
  - pose proof (lone_quote _ s _ _ P) as NQ. destruct (lone_cons _ _ _ P) as (A & B & P'). cbn [app]. rewrite (tok_eq _ _ _ _ _ _ _ _ os H). rewrite NQ.
    assert (Q : aq && Ascii.eqb c quote = false) by (destruct aq; auto; cbn [andb]; apply Ascii.eqb_neq; auto). rewrite Q, (not_odd _ _ _ _ H N), andb_false_r.
    rewrite (IH s (Ascii.eqb c quote) (S i) stack rep bo it os) by auto. replace (S i + length t) with (i + length (c :: t)) by (cbn; lia).
    destruct t as [|d t]; auto. destruct (Ascii.eqb_spec c quote) as [->|_]; auto. destruct (B eq_refl) as (e & t' & E & _). discriminate.
Qed.

Definition no_quote (s : str) : Prop := match s with c :: _ => c <> quote | [] => True end.

Lemma tok_quotes : forall k u aq i stack rep bo it os, inv stack bo it os -> no_quote u ->
  tok (quotes_of k ++ u) aq i stack rep bo it =
  if crosses os k && negb rep then None
  else tok u true (i + length (quotes_of k)) (push i os k stack) rep (if style_eqb k Bold then negb bo else bo) (if style_eqb k Italic then negb it else it).
Proof.
  intros k u aq i stack rep bo it os H U. destruct k.
  - change (quotes_of Bold ++ u) with (quote :: quote :: quote :: u). cbn [quotes_of length style_eqb]. rewrite (tok_eq _ _ _ _ _ _ _ _ os H). change (has_prefix !"''" (quote :: quote :: quote :: u)) with true. cbn iota.
    change (has_prefix !"'''" (quote :: quote :: quote :: u)) with true. cbn iota.
    change (skipn 2 (quote :: quote :: quote :: u)) with (quote :: u). change (skipn 3 (quote :: quote :: quote :: u)) with u.
    assert (X : tok (quote :: u) true (i + 2) (push i os Italic stack) rep bo (negb it) = None).
    { rewrite (tok_eq _ _ _ _ _ _ _ _ (snd (toggle os Italic))); [|apply (toggle_inv stack bo it os Italic i H)].
      assert (P : has_prefix !"''" (quote :: u) = false).
      { destruct u as [|c u]; [reflexivity|]. cbn [no_quote] in U. cbn [has_prefix]. change (Ascii.eqb "'" quote) with true. cbn iota.
        destruct (Ascii.eqb_spec "'" c); auto. exfalso. apply U. auto. }
      rewrite P. reflexivity. }
    rewrite X. destruct (crosses os Italic && negb rep); reflexivity.
  - change (quotes_of Italic ++ u) with (quote :: quote :: u). cbn [quotes_of length style_eqb].
    rewrite (tok_eq _ _ _ _ _ _ _ _ os H). change (has_prefix !"''" (quote :: quote :: u)) with true. cbn iota.
    change (skipn 2 (quote :: quote :: u)) with u.
    assert (P : has_prefix !"'''" (quote :: quote :: u) = false).
    { destruct u as [|c u]; [reflexivity|]. cbn [no_quote] in U. cbn [has_prefix]. change (Ascii.eqb "'" quote) with true. cbn iota.
      destruct (Ascii.eqb_spec "'" c); auto. exfalso. apply U. auto. }
    rewrite P. destruct (if crosses os Italic && negb rep then None else _) eqn:E; rewrite ?E; destruct (crosses os Italic && negb rep); auto; congruence.
Qed.

Lemma proper_no_quote : forall s, proper_separated true s -> no_quote (separated_text s).
Proof.
  intros [t|t k rest] H; cbn [proper_separated separated_text] in *.
  - destruct t as [|c t]; [exact I|]. apply plain_first in H. exact H.
  - destruct H as (P & N & _). specialize (N eq_refl). destruct t as [|c t]; [congruence|]. apply plain_first in P. exact P.
Qed.

Fixpoint block (os : list style) (s : separated) : option (list part * separated) :=
  match s with
  | Last _ => None
  | Word t k rest =>
      match snd (toggle os k) with
      | [] => Some (chars t ++ toggle_parts os k, rest)
      | os' => match block os' rest with Some (ps, r) => Some (chars t ++ toggle_parts os k ++ ps, r) | None => None end
      end
  end.

Lemma toggle_fst : forall os k, NoDup os -> afters (toggle_parts os k) = concat (map marker_text (fst (toggle os k))).
Proof. intros os k N. destruct (os_cases os N) as [->|[->|[->|[->| ->]]]]; destruct k; reflexivity. Qed.
Lemma toggle_nodup : forall os k, NoDup os -> NoDup (snd (toggle os k)).
Proof.
  intros os k N. destruct (os_cases os N) as [->|[->|[->|[->| ->]]]]; destruct k; cbn; repeat constructor; cbn; intuition discriminate.
Qed.

Fixpoint size (s : separated) : nat := match s with Last _ => 0 | Word _ _ rest => S (size rest) end.

Lemma formatted_block : forall s os x inner, NoDup os -> proper_separated inner s -> formatted os s = (x, []) -> (os <> [] \/ exists t k r, s = Word t k r) ->
  exists ps r y l0 m q, block os s = Some (ps, r) /\ formatted [] r = (y, []) /\ x = afters ps ++ y /\ separated_text s = befores ps ++ separated_text r /\
    proper_separated true r /\ size r < size s /\ Forall replaced ps /\ ps = l0 ++ [Mark m q].
Proof.
  induction s as [t|t k rest IH]; intros os x inner N P F C.
  - cbn in F. injection F as <- ->. destruct C as [C|(t' & k & r & C)]; [congruence|discriminate].
  - cbn [formatted] in F. cbn [proper_separated] in P. destruct P as (Pt & Ni & Pr). cbn [block separated_text size].
    destruct (toggle os k) as [m0 os'] eqn:T. destruct (formatted os' rest) as [y0 o2] eqn:F2. injection F as <- ->. cbn [snd].
    assert (N' : NoDup os') by (pose proof (toggle_nodup os k N) as X; rewrite T in X; exact X).
    pose proof (toggle_fst os k N) as TF. rewrite T in TF. cbn [fst] in TF.
    destruct (toggle_befores os k N) as (TB & TR & (l1 & m1 & q1 & TL)).
    assert (FC : Forall replaced (chars t)). { apply Forall_forall. intros p I. apply in_map_iff in I as (c & <- & _). exact Logic.I. }
    destruct os' as [|k' os'].
    + exists (chars t ++ toggle_parts os k), rest, y0, (chars t ++ l1), m1, q1. split; [auto|]. split; [auto|]. split.
      { rewrite afters_app, afters_chars, TF, <- app_assoc. auto. }
      split. { rewrite befores_app, befores_chars, TB, <- app_assoc. auto. }
      split; auto. split; [lia|]. split; [apply Forall_app; auto|]. rewrite TL, app_assoc. auto.
    + assert (NE : k' :: os' <> []) by discriminate.
      destruct (IH (k' :: os') y0 true N' Pr F2 (or_introl NE)) as (ps & r & y & l0 & m & q & -> & Fr & -> & Es & Pr' & Sr & Fp & ->).
      exists (chars t ++ toggle_parts os k ++ l0 ++ [Mark m q]), r, y, (chars t ++ toggle_parts os k ++ l0), m, q. split; [auto|]. split; [auto|]. split.
      { rewrite !afters_app, afters_chars, TF, <- !app_assoc. auto. }
      split. { rewrite !befores_app, befores_chars, TB, Es, !befores_app, <- !app_assoc. auto. }
      split; auto. split; [lia|]. split; [repeat (apply Forall_app; split; auto); apply Forall_app in Fp; tauto|]. rewrite <- !app_assoc. auto.
Qed.

Lemma items_chars_app : forall t l i, items_at i (chars t ++ l) = items_at (i + length t) l.
Proof. intros. rewrite items_at_app, items_chars, befores_chars. auto. Qed.

Lemma push_ne : forall i os k stack, NoDup os -> 0 <? length (push i os k stack) = true.
Proof.
  intros i os k stack N. unfold push. rewrite app_length, rev_length.
  destruct (os_cases os N) as [->|[->|[->|[->| ->]]]]; destruct k; reflexivity.
Qed.

(** The end of a block *)
Lemma tok_end : forall u i stack rep bo it, inv stack bo it [] -> (0 <? length stack) = true -> no_quote u ->
  tok u true i stack rep bo it = Some stack.
Proof.
  intros u i stack rep bo it H L U. pose proof (proj2 (odd_state stack [] (proj1 H)) eq_refl) as O.
  destruct u as [|c u]; [rewrite tok_nil, O; auto|]. rewrite (tok_eq _ _ _ _ _ _ _ _ [] H), no_quotes by auto.
  assert (Q : Ascii.eqb c quote = false) by (apply Ascii.eqb_neq; auto). rewrite Q, L, O. auto.
Qed.

Lemma tok_block : forall s os ps r stack bo it i, inv stack bo it os -> os <> [] -> proper_separated true s -> block os s = Some (ps, r) ->
  tok (separated_text s) true i stack true bo it = Some (rev (items_at i ps) ++ stack) /\
  (tok (separated_text s) true i stack false bo it = None \/ tok (separated_text s) true i stack false bo it = Some (rev (items_at i ps) ++ stack)).
Proof.
  induction s as [t|t k rest IH]; intros os ps r stack bo it i H N P B; [discriminate|].
  cbn [proper_separated separated_text block] in *. destruct P as (Pt & _ & Pr).
  rewrite !(tok_plain t _ true i stack _ bo it os H N (plain_lone _ _ Pt)).
  rewrite !(tok_quotes k _ _ _ stack _ bo it os H (proper_no_quote rest Pr)). cbn [negb]. rewrite andb_false_r, andb_true_r.
  assert (No : NoDup os) by apply H. destruct (toggle_befores os k No) as (TB & _).
  pose proof (toggle_inv stack bo it os k (i + length t) H) as H'. fold (push (i + length t) os k stack) in H'.
  destruct (snd (toggle os k)) as [|k' os'].
  - injection B as <- <-. rewrite items_chars_app.
    rewrite !(tok_end _ _ (push (i + length t) os k stack) _ _ _ H'); auto using push_ne, proper_no_quote.
    split; auto. destruct (crosses os k); auto.
  - destruct (block (k' :: os') rest) as [[ps2 r2]|] eqn:B2; [|discriminate]. injection B as <- <-.
    destruct (IH (k' :: os') ps2 r2 (push (i + length t) os k stack) _ _ (i + length t + length (quotes_of k)) H') as (A1 & A2); auto; [discriminate|].
    rewrite items_chars_app, items_at_app, rev_app_distr, <- app_assoc, TB. unfold push at 2 in A1. unfold push at 3 in A2.
    split; [exact A1|]. destruct (crosses os k); auto.
Qed.

Lemma chars_replaced : forall t, Forall replaced (chars t).
Proof. intros t. apply Forall_forall. intros p I. apply in_map_iff in I as (c & <- & _). exact Logic.I. Qed.

Theorem parse_separated_go : forall n fuel pre s x inner, size s < n -> length (separated_text s) < fuel -> proper_separated inner s -> formatted [] s = (x, []) ->
  parseBoldAndItalic_go fuel (pre ++ separated_text s) (length pre) = Ok (pre ++ x).
Proof.
  induction n as [|n IH]; intros fuel pre s x inner Ln L P F; [lia|]. destruct fuel as [|fuel]; [lia|].
  cbn [parseBoldAndItalic_go]. rewrite skipn_pre. destruct s as [t|t k rest].
  - cbn [separated_text proper_separated formatted] in *. injection F as <-.
    replace (index !"''" t) with (@None nat); auto. symmetry. apply index_none. apply P.
  - cbn [proper_separated] in P. destruct P as (Pt & Ni & Pr).
    assert (Ik : index !"''" (separated_text (Word t k rest)) = Some (length t)).
    { cbn [separated_text]. assert (E : exists z, quotes_of k ++ separated_text rest = !"''" ++ z) by (destruct k; eexists; reflexivity).
      destruct E as (z & ->). apply index_first. intros j J. destruct (skipn j t) as [|c t'] eqn:S; [apply (f_equal (@length ascii)) in S; rewrite skipn_length in S; cbn in S; lia|].
      rewrite skipn_app, S. replace (j - length t) with 0 by lia. cbn [skipn]. change ((c :: t') ++ !"''" ++ z) with (c :: t' ++ !"''" ++ z). apply (lone_quote c _ t' false).
      assert (E : t = firstn j t ++ c :: t') by (rewrite <- S, firstn_skipn; reflexivity). destruct Pt as (A & _ & C). split; [|split; [discriminate|]].
      - intros a b X. apply (A (firstn j t ++ a) b). rewrite <- app_assoc, <- X. exact E.
      - intros a X. apply (C (firstn j t ++ a)). rewrite <- app_assoc, <- X. exact E. }
    rewrite Ik. set (aq := match length pre + length t with 0 => false | S i => _ end). clearbody aq.
    assert (Es' : skipn (length pre + length t) (pre ++ separated_text (Word t k rest)) = quotes_of k ++ separated_text rest).
    { cbn [separated_text]. rewrite app_assoc, <- app_length, skipn_pre. auto. }
    rewrite Es'.
    destruct (formatted_block (Word t k rest) [] x inner (NoDup_nil _)) as (ps & r & y & l0 & m & q & B & Fr & -> & Et & Pr' & Sr & Fp & Ep); auto.
    { cbn [proper_separated]. auto. } { right. eauto. }
    assert (T : tok (quotes_of k ++ separated_text rest) aq (length pre + length t) [] true false false = Some (rev (items_at (length pre) ps)) /\
      (tok (quotes_of k ++ separated_text rest) aq (length pre + length t) [] false false false = None \/
       tok (quotes_of k ++ separated_text rest) aq (length pre + length t) [] false false false = Some (rev (items_at (length pre) ps)))).
    { rewrite !(tok_quotes k _ _ _ [] _ false false [] inv_start (proper_no_quote rest Pr)). cbn [crosses andb].
      pose proof (toggle_inv [] false false [] k (length pre + length t) inv_start) as H'. fold (push (length pre + length t) [] k []) in H'.
      cbn [block] in B. assert (E : snd (toggle [] k) = [k]) by (destruct k; reflexivity). rewrite E in B, H'.
      destruct (block [k] rest) as [[ps2 r2]|] eqn:B2; [|discriminate]. injection B as <- <-.
      destruct (tok_block rest [k] ps2 r2 (push (length pre + length t) [] k []) _ _ (length pre + length t + length (quotes_of k)) H') as (A1 & A2); auto; [discriminate|].
      change (Mark (Open k) (quotes_of k) :: ps2) with (toggle_parts [] k ++ ps2) in *.
      rewrite items_chars_app, items_at_app, rev_app_distr. destruct (toggle_befores [] k (NoDup_nil _)) as (TB & _). rewrite TB.
      unfold push in A1 at 2. unfold push in A2 at 3. rewrite app_nil_r in A1. rewrite (app_nil_r (rev _)) in A2. split; [exact A1|].
      destruct A2 as [A2|A2]; auto. }
    assert (St : match tok (quotes_of k ++ separated_text rest) aq (length pre + length t) [] false false false with
      | Some stack => Some stack | None => tok (quotes_of k ++ separated_text rest) aq (length pre + length t) [] true false false end = Some (rev (items_at (length pre) ps))).
    { destruct T as [T1 [T2|T2]]; rewrite T2; auto. }
    rewrite St, rev_involutive, Et. subst ps. rewrite insert_spec by auto.
    rewrite (app_assoc pre (afters (l0 ++ [Mark m q]))), (app_assoc pre (afters (l0 ++ [Mark m q]))).
    apply (IH fuel (pre ++ afters (l0 ++ [Mark m q])) r y true); auto.
    + cbn [size] in *. lia.
    + assert (2 <= length (befores (l0 ++ [Mark m q]))).
      { assert (E : separated_text (Word t k rest) = befores (l0 ++ [Mark m q]) ++ separated_text r) by exact Et.
        cbn [block] in B. destruct (snd (toggle [] k)) eqn:E2; [destruct k; discriminate|].
        destruct (block _ rest) as [[ps2 r2]|]; [|discriminate]. injection B as B _. rewrite <- B.
        change (Mark (Open k) (quotes_of k) :: ps2) with (toggle_parts [] k ++ ps2). rewrite !befores_app, !app_length.
        destruct (toggle_befores [] k (NoDup_nil _)) as (TB & _). rewrite TB. destruct k; cbn; lia. }
      rewrite Et, app_length in L. lia.
Qed.

Theorem parse_separated : forall s x, proper_separated false s -> formatted [] s = (x, []) -> parseBoldAndItalic (separated_text s) = Ok x.
Proof. intros s x P F. apply (parse_separated_go (S (size s)) _ [] s x false); auto. Qed.
