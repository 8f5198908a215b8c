(** * Proofs about finding templates *)

From Coq Require Import Ascii String.
From Coq Require Import List Arith Bool Lia.
From Verif Require Import GoStr GoStrFacts TextFacts BracketModel BracketSpec BracketProofs CleanerSpec CleanerTemplateProofs TemplateModel TemplateSpec TemplateProofs.
Import ListNotations.
Local Open Scope list_scope.

(** ** Reading *)

Lemma reading_prefix : forall o c s l, o <> [] -> c <> [] -> reading o c s l -> forall a b, l = a ++ b -> reading o c (items_text o c a) a.
Proof.
  intros o c s l Ho Hc R. induction R as [|s l N R IH|s l D R IH|x s l N1 N2 R IH]; intros a b E.
  - destruct a; [constructor|discriminate].
  - destruct a as [|i a]; [constructor|]. injection E as <- E. change (items_text o c (Opening :: a)) with (o ++ items_text o c a). apply read_open; auto. eapply IH; eauto.
  - destruct a as [|i a]; [constructor|]. injection E as <- E. change (items_text o c (Closing :: a)) with (c ++ items_text o c a). apply read_close; [|eapply IH; eauto].
    destruct D as [D|D]; auto. right. pose proof (reading_text _ _ _ _ R) as T. subst l s. fold (items_text o c a).
    destruct (has_prefix o (c ++ items_text o c a)) eqn:P; auto. apply has_prefix_spec in P as (t & P).
    rewrite items_app, app_assoc, P in D. rewrite <- app_assoc in D. rewrite (proj2 (has_prefix_spec _ _)) in D; eauto.
  - destruct a as [|i a]; [constructor|]. injection E as <- E. pose proof (reading_text _ _ _ _ R) as T. subst l s.
    rewrite items_app in N1, N2. change (items_text o c (Other x :: a)) with (x :: items_text o c a).
    assert (Q : forall p, has_prefix p (x :: items_text o c a ++ items_text o c b) = false -> has_prefix p (x :: items_text o c a) = false).
    { intros p F. destruct (has_prefix p (x :: items_text o c a)) eqn:P; auto. apply has_prefix_spec in P as (t & P).
      change (x :: items_text o c a ++ items_text o c b) with ((x :: items_text o c a) ++ items_text o c b) in F.
      rewrite P, <- app_assoc in F. rewrite (proj2 (has_prefix_spec _ _)) in F; eauto. }
    apply read_other; auto. eapply IH; eauto.
Qed.

Notation oo := ["{"%char; "{"%char].
Notation cc := ["}"%char; "}"%char].
Lemma oo_ne : oo <> []. Proof. discriminate. Qed.
Lemma cc_ne : cc <> []. Proof. discriminate. Qed.
Lemma oc_ne : oo <> cc. Proof. discriminate. Qed.
#[local] Hint Resolve oo_ne cc_ne oc_ne : core.

Lemma balanced_split : forall a a' b b', balanced a -> balanced a' -> a ++ Closing :: b = a' ++ Closing :: b' -> a = a' /\ b = b'.
Proof.
  intros a a' b b' B B' E. pose proof (first_unpaired_balanced a B (Closing :: b) 0) as H.
  pose proof (first_unpaired_balanced a' B' (Closing :: b') 0) as H'. rewrite E, H' in H. cbn in H. injection H as H.
  assert (L : length a = length a') by lia. clear -L E. revert a' L E. induction a as [|x a IH]; intros [|x' a'] L E; try discriminate.
  - injection E as ->. auto.
  - cbn [app] in E. injection E as -> E. destruct (IH a') as [-> ->]; auto.
Qed.

Lemma closed_app : forall l1 t1, closed l1 t1 -> balanced l1 -> forall l2 t2, closed l2 t2 -> closed (l1 ++ l2) (t1 ++ t2).
Proof.
  induction 1 as [|x l t H IH|l t H IH| |l1 l2 t1 t2 B H1 IH1 H2 IH2]; intros Bl l' t' H'; cbn [app]; auto.
  - apply closed_other. apply IH; auto. inversion Bl; auto.
  - inversion Bl.
  - inversion Bl. destruct l1; discriminate.
  - rewrite <- app_assoc. cbn [app]. apply closed_pair; auto. apply IH2; auto.
    inversion Bl as [| |l1' l2' B1 B2 E]. apply balanced_split in E as [-> ->]; auto.
Qed.

Lemma balanced_closed : forall l, balanced l -> exists t, closed l t.
Proof.
  induction 1 as [|x l H [t IH]|l1 l2 H1 [t1 IH1] H2 [t2 IH2]].
  - exists []. constructor.
  - eexists. constructor. eauto.
  - eexists. apply closed_pair; eauto.
Qed.

Lemma shift_close : forall pre s k, k <= length s ->
  FindCorrespondingCloseToken (pre ++ s) (length pre + k) oo cc = option_map (fun e => length pre + e) (FindCorrespondingCloseToken s k oo cc).
Proof.
  intros pre s k L. unfold FindCorrespondingCloseToken, findCorrespondingCloseToken.
  replace (skipn (length pre + k) (pre ++ s)) with (skipn k s).
  2:{ rewrite skipn_app. rewrite (skipn_all2 pre) by lia. cbn [app]. f_equal. lia. }
  destruct (reading_total oo cc (skipn k s)) as (l & R); auto.
  rewrite !(findClose_reading oo cc _ l); auto. destruct (first_unpaired l 0); auto. cbn [option_map]. f_equal. lia.
Qed.

Lemma close_at : forall s l1 l2, reading oo cc (oo ++ s) (Opening :: l1 ++ Closing :: l2) -> balanced l1 ->
  reading oo cc s (l1 ++ Closing :: l2) /\ s = items_text oo cc l1 ++ cc ++ items_text oo cc l2 /\
  FindCorrespondingCloseToken (oo ++ s) 2 oo cc = Some (2 + length (items_text oo cc l1)).
Proof.
  intros s l1 l2 R B. assert (Rs : reading oo cc s (l1 ++ Closing :: l2)).
  { inversion R as [E|s' l N R' E|s' l D R' E|y s' l N1 N2 R' E]; subst. auto. }
  split; auto. split.
  - apply reading_text in Rs. rewrite items_app in Rs. auto.
  - unfold FindCorrespondingCloseToken, findCorrespondingCloseToken. change (skipn 2 (oo ++ s)) with s.
    rewrite (findClose_reading oo cc _ _ oo_ne cc_ne Rs). rewrite first_unpaired_balanced by auto. cbn [first_unpaired option_map].
    rewrite Nat.add_0_r, firstn_app, firstn_all, Nat.sub_diag. cbn [firstn]. rewrite app_nil_r. auto.
Qed.

Lemma close_found : forall s e, FindCorrespondingCloseToken (oo ++ s) 2 oo cc = Some e ->
  exists l1 l2, reading oo cc s (l1 ++ Closing :: l2) /\ balanced l1 /\ e = 2 + length (items_text oo cc l1) /\
    s = items_text oo cc l1 ++ cc ++ items_text oo cc l2 /\ reading oo cc (items_text oo cc l2) l2.
Proof.
  intros s e H. apply findClose_spec in H; auto; [|cbn; lia]. destruct H as (_ & l1 & l2 & R & B & E).
  change (skipn 2 (oo ++ s)) with s in R. exists l1, l2. repeat split; auto.
  - apply reading_text in R. rewrite items_app in R. auto.
  - remember (l1 ++ Closing :: l2) as l eqn:El. clear -R El. revert l1 El.
    induction R as [|s l N R IH|s l D R IH|x s l N1 N2 R IH]; intros l1 El.
    + destruct l1; discriminate.
    + destruct l1 as [|i l1]; [discriminate|]. injection El as <- El. eauto.
    + destruct l1 as [|i l1].
      * injection El as ->. rewrite <- (reading_text _ _ _ _ R). auto.
      * injection El as <- El. eauto.
    + destruct l1 as [|i l1]; [discriminate|]. injection El as <- El. eauto.
Qed.

(** ** The scan *)

Section Scan.
  Variable Hash : str -> str.
  Variable service : list str -> str -> option str.
  Hypothesis hashes : forall s, hash_value (Hash s).

  Notation evaluate := (evaluate Hash service).
  Notation replaceTBP := (replaceTemplateByPlaceholders Hash service).

  (** The loop on the remaining text *)
  Fixpoint scan (n : nat) (st : tstate) (suf : str) : tstate * res str :=
    match n with
    | O => (st, OutOfFuel)
    | S n =>
        if 2 <? length suf then
          if has_prefix oo suf then
            match FindCorrespondingCloseToken suf 2 oo cc with
            | None => (st, Err)
            | Some e =>
                match scan n st (skipn 2 (firstn (e + 2) suf)) with
                | (st, Ok inner) =>
                    match evaluate st (oo ++ inner) with
                    | (st, Ok p) => let (st, r) := scan n st (skipn (e + 2) suf) in (st, let! x := r in Ok (p ++ x))
                    | (st, r) => (st, r)
                    end
                | (st, r) => (st, r)
                end
            end
          else match suf with [] => (st, Ok []) | c :: s => let (st, r) := scan n st s in (st, let! x := r in Ok (c :: x)) end
        else (st, Ok suf)
    end.

  Lemma scan_plain : forall n st s, length s < n -> contains oo s = false -> scan n st s = (st, Ok s).
  Proof.
    induction n as [|n IH]; intros st s L C; [lia|]. cbn [scan].
    destruct (Nat.ltb_spec 2 (length s)) as [Q|Q]; auto.
    assert (P : has_prefix oo s = false).
    { destruct (has_prefix oo s) eqn:P; auto. apply has_prefix_spec in P as (t & ->). rewrite contains_false in C. destruct (C [] t). auto. }
    rewrite P. destruct s as [|c s]; auto. rewrite IH; auto.
    - cbn in L. lia.
    - rewrite contains_false in *. intros a b ->. apply (C (c :: a) b). auto.
  Qed.

  (** No template begins inside of [pre] *)
  Definition no_begin (pre suf : str) : Prop := forall a b, pre ++ suf = a ++ oo ++ b -> length pre <= length a.

  Lemma no_begin_snoc : forall pre c s, no_begin pre (c :: s) -> has_prefix oo (c :: s) = false -> no_begin (pre ++ [c]) s.
  Proof.
    intros pre c s N P a b E. rewrite <- app_assoc in E. cbn [app] in E. pose proof (N a b E) as L.
    rewrite app_length. cbn [length]. destruct (Nat.eq_dec (length a) (length pre)) as [Q|Q]; [|lia]. exfalso.
    assert (a = pre /\ c :: s = oo ++ b) as [-> X].
    { clear -E Q. revert a Q E. induction pre as [|x pre IH]; intros [|y a] Q E; try discriminate; auto.
      cbn [app] in E. injection E as -> E. destruct (IH a) as [-> ->]; auto. }
    rewrite X in P. rewrite (proj2 (has_prefix_spec _ _)) in P; [discriminate|eauto].
  Qed.

  Lemma no_begin_replace : forall pre s s', no_begin pre (oo ++ s) -> no_begin pre ("$"%char :: s').
  Proof.
    intros pre s s' N a b E. destruct (le_lt_dec (length pre) (length a)) as [L|L]; auto. exfalso.
    symmetry in E. destruct (app_split_le pre ("$"%char :: s') a (oo ++ b)) as (z & -> & Ez); [auto|lia|].
    destruct z as [|z0 [|z1 z]].
    - rewrite app_nil_r in L. lia.
    - discriminate Ez.
    - injection Ez as <- <- ->. specialize (N a (z ++ oo ++ s)). rewrite app_length in N. cbn [length] in N.
      assert (length a + S (S (length z)) <= length a); [|lia]. apply N. rewrite <- app_assoc. auto.
  Qed.

  Lemma no_begin_start : forall s, no_begin [] s.
  Proof. intros s a b E. cbn. lia. Qed.

  Lemma step_short : forall F st s i, length s <= i + 2 -> replaceTBP (S F) st s i = (st, Ok s).
  Proof. intros. cbn [replaceTemplateByPlaceholders]. destruct (Nat.ltb_spec (i + 2) (length s)); auto. lia. Qed.

  Lemma step_char : forall F st s i, i + 2 < length s -> has_prefix oo (skipn i s) = false -> replaceTBP (S F) st s i = replaceTBP F st s (S i).
  Proof. intros. cbn [replaceTemplateByPlaceholders]. destruct (Nat.ltb_spec (i + 2) (length s)); [|lia]. rewrite H0. auto. Qed.

  Lemma skipn_pre : forall (pre s : str), skipn (length pre) (pre ++ s) = s.
  Proof. intros. rewrite skipn_app, skipn_all, Nat.sub_diag. auto. Qed.

  Lemma walk : forall w F st pre s, no_begin pre (w ++ s) -> no_begin (pre ++ w) s ->
    replaceTBP (length w + S F) st (pre ++ w ++ s) (length pre) = replaceTBP (S F) st ((pre ++ w) ++ s) (length (pre ++ w)).
  Proof.
    induction w as [|c w IH]; intros F st pre s N N'.
    - rewrite app_nil_r. auto.
    - destruct (le_lt_dec (length (pre ++ (c :: w) ++ s)) (length pre + 2)) as [L|L].
      + rewrite (step_short F); [|rewrite !app_length in *; cbn [length] in *; lia].
        cbn [length Nat.add]. rewrite step_short by auto. rewrite <- app_assoc. auto.
      + cbn [length Nat.add]. assert (P : has_prefix oo ((c :: w) ++ s) = false).
        { destruct (has_prefix oo ((c :: w) ++ s)) eqn:P; auto. apply has_prefix_spec in P as (t & P). exfalso.
          specialize (N' pre t). rewrite <- app_assoc, P in N'. specialize (N' eq_refl). rewrite app_length in N'. cbn [length] in N'. lia. }
        rewrite step_char; auto; [|rewrite skipn_pre; auto].
        replace (S (length pre)) with (length (pre ++ [c])) by (rewrite app_length; cbn; lia).
        replace (pre ++ (c :: w) ++ s) with ((pre ++ [c]) ++ w ++ s) by (rewrite <- app_assoc; auto).
        rewrite IH; rewrite <- ?app_assoc; auto. cbn [app] in N, P. apply no_begin_snoc; auto. 
  Qed.

  Lemma no_begin_word : forall w pre s, ~ In "{"%char w -> no_begin pre (w ++ s) -> no_begin (pre ++ w) s.
  Proof.
    induction w as [|c w IH]; intros pre s N H.
    - rewrite app_nil_r. auto.
    - replace (pre ++ c :: w) with ((pre ++ [c]) ++ w) by (rewrite <- app_assoc; auto). apply IH.
      + intros I. apply N. right. auto.
      + apply no_begin_snoc; auto. apply no_double_prefix. intros ->. exfalso. apply N. left. auto.
  Qed.

  Lemma placeholder_word : forall k, hash_value k -> ~ In "{"%char (placeholder k).
  Proof.
    intros k [H _] I. unfold placeholder in I. apply in_app_or in I as [I|I].
    - cbn in I. intuition discriminate.
    - apply in_app_or in I as [I|I].
      + rewrite Forall_forall in H. apply H in I. unfold hexadecimal in I. cbn [In] in I. intuition discriminate.
      + cbn in I. intuition discriminate.
  Qed.

  Lemma evaluate_result : forall st t, (exists st', evaluate st t = (st', Err)) \/ (exists st', evaluate st t = (st', Ok (placeholder (Hash t)))).
  Proof. intros st t. unfold TemplateModel.evaluate. destruct (service (requests st) t); eauto. Qed.

  Lemma replace_here : forall pre T s p, no_begin pre ((oo ++ T) ++ s) -> replace_first (oo ++ T) p (pre ++ (oo ++ T) ++ s) = pre ++ p ++ s.
  Proof.
    intros pre T s p N. unfold replace_first.
    assert (I : index (oo ++ T) (pre ++ (oo ++ T) ++ s) = Some (length pre)).
    { apply index_first. intros j J. destruct (has_prefix (oo ++ T) (skipn j (pre ++ (oo ++ T) ++ s))) eqn:P; auto. exfalso.
      apply has_prefix_spec in P as (t & P). specialize (N (firstn j pre) (T ++ t)). rewrite firstn_length in N.
      assert (length pre <= min j (length pre)); [|lia]. apply N.
      rewrite <- (firstn_skipn j (pre ++ (oo ++ T) ++ s)), P. rewrite firstn_app. replace (j - length pre) with 0 by lia.
      cbn [firstn]. rewrite app_nil_r, <- app_assoc. auto. }
    rewrite I. destruct (index_of_parts (oo ++ T) pre s I) as [-> ->]. auto.
  Qed.

  Lemma map_res_compose : forall (r : res str) (f g h : str -> str), (forall x, f (g x) = h x) ->
    (let! y := (let! x := r in Ok (g x)) in Ok (f y)) = (let! x := r in Ok (h x)).
  Proof. intros [x| | |] f g h H; cbn; auto. rewrite H. auto. Qed.

  Lemma scan_inner : forall n st T, length T < n -> (if contains oo T then scan n st T else (st, Ok T)) = scan n st T.
  Proof. intros n st T L. destruct (contains oo T) eqn:C; auto. rewrite scan_plain; auto. Qed.

  Theorem replace_scan : forall n F st pre suf, length suf < n -> 66 * length suf < F -> no_begin pre suf ->
    replaceTBP F st (pre ++ suf) (length pre) = let (st', r) := scan n st suf in (st', let! x := r in Ok (pre ++ x)).
  Proof.
    induction n as [|n IH]; intros F st pre suf Ln LF N; [lia|]. destruct F as [|F]; [lia|]. cbn [scan].
    destruct (Nat.ltb_spec 2 (length suf)) as [L|L].
    2:{ rewrite step_short; [reflexivity|rewrite app_length; lia]. }
    destruct (has_prefix oo suf) eqn:P.
    2:{ destruct suf as [|c s]; [cbn in L; lia|]. rewrite step_char; [|rewrite app_length; lia|rewrite skipn_pre; auto].
        replace (S (length pre)) with (length (pre ++ [c])) by (rewrite app_length; cbn; lia).
        replace (pre ++ c :: s) with ((pre ++ [c]) ++ s) by (rewrite <- app_assoc; auto).
        rewrite IH; [|cbn in Ln; lia|cbn in LF; lia|apply no_begin_snoc; auto].
        destruct (scan n st s) as [st' r]. f_equal. symmetry. apply map_res_compose. intros x. rewrite <- app_assoc. auto. }
    cbn [replaceTemplateByPlaceholders]. destruct (Nat.ltb_spec (length pre + 2) (length (pre ++ suf))) as [_|Q]; [|rewrite app_length in Q; lia].
    rewrite skipn_pre, P. rewrite shift_close by lia. apply has_prefix_spec in P as (s & ->).
    destruct (FindCorrespondingCloseToken (oo ++ s) 2 oo cc) as [e|] eqn:E; cbn [option_map]; [|reflexivity].
    apply close_found in E as (l1 & l2 & R & B & -> & -> & R2).
    set (i1 := items_text oo cc l1) in *. set (i2 := items_text oo cc l2) in *.
    replace (oo ++ i1 ++ cc ++ i2) with ((oo ++ i1 ++ cc) ++ i2) in * by (rewrite <- !app_assoc; auto).
    rewrite (sub_middle pre (oo ++ i1 ++ cc) i2) by (rewrite !app_length; cbn [length]; lia).
    replace (2 + length i1 + 2) with (length (oo ++ i1 ++ cc)) by (rewrite !app_length; cbn [length]; lia).
    rewrite firstn_app, firstn_all, Nat.sub_diag, skipn_pre. cbn [firstn]. rewrite app_nil_r.
    change (skipn 2 (oo ++ i1 ++ cc)) with (i1 ++ cc).
    assert (Li : length (i1 ++ cc) < n /\ 66 * length (i1 ++ cc) < F /\ length i2 < n /\ 66 + 66 * length i2 < F).
    { rewrite !app_length in *. cbn [length] in *. lia. }
    destruct Li as (Li1 & Li2 & Li3 & Li4).
    pose proof (IH F st [] (i1 ++ cc) Li1 Li2 (no_begin_start _)) as HI. cbn [app length] in HI. rewrite HI.
    assert (J : (let (st0, templateText) :=
        if contains oo (i1 ++ cc) then
          let (st0, r) := let (st', r) := scan n st (i1 ++ cc) in (st', let! x := r in Ok x) in
          (st0, let! newContent := r in Ok (oo ++ newContent))
        else (st, Ok (oo ++ i1 ++ cc)) in (st0, templateText)) = let (st0, r) := scan n st (i1 ++ cc) in (st0, let! x := r in Ok (oo ++ x))).
    { destruct (contains oo (i1 ++ cc)) eqn:C.
      - destruct (scan n st (i1 ++ cc)) as [st0 [x| | |]]; reflexivity.
      - rewrite scan_plain; auto. }
    destruct (if contains oo (i1 ++ cc) then _ else _) as [st0 tt].
    destruct (scan n st (i1 ++ cc)) as [st1 [x| | |]]; cbn [bind] in J; injection J as -> ->; try reflexivity.
    change ("{"%char :: "{"%char :: x) with (oo ++ x).
    destruct (evaluate_result st1 (oo ++ x)) as [(st2 & ->)|(st2 & ->)]; [reflexivity|].
    rewrite replace_here by auto. set (p := placeholder (Hash (oo ++ x))) in *.
    assert (W : no_begin pre (p ++ i2)).
    { unfold p, placeholder. cbn [app]. eapply no_begin_replace. rewrite <- app_assoc in N. exact N. }
    assert (NP : ~ In "{"%char p) by (apply placeholder_word; auto).
    assert (LP : length p = 65).
    { unfold p, placeholder. rewrite !app_length. destruct (hashes (oo ++ x)) as [_ ->]. reflexivity. }
    assert (S1 : forall G, replaceTBP (S G) st2 (pre ++ p ++ i2) (length pre) = replaceTBP G st2 (pre ++ p ++ i2) (S (length pre))).
    { intros G. apply step_char; [rewrite !app_length; lia|]. rewrite skipn_pre. reflexivity. }
    rewrite <- S1. replace (S F) with (length p + S (F - 65)) by lia.
    rewrite walk; auto; [|apply no_begin_word; auto].
    rewrite (IH (S (F - 65)) st2 (pre ++ p) i2); [|lia|lia|apply no_begin_word; auto].
    destruct (scan n st2 i2) as [st3 r]. f_equal. symmetry. apply map_res_compose. intros y. rewrite <- app_assoc. auto.
  Qed.
  Corollary replace_enough : forall st s, exists n, length s < n /\
    replaceTBP (template_fuel s) st s 0 = scan n st s.
  Proof.
    intros st s. exists (S (length s)). split; [lia|].
    pose proof (replace_scan (S (length s)) (template_fuel s) st [] s) as H. cbn [app length] in H. rewrite H.
    - destruct (scan _ st s) as [st' [x| | |]]; reflexivity.
    - lia.
    - unfold template_fuel. lia.
    - apply no_begin_start.
  Qed.

  (** ** Closed texts *)

  Definition holes (t : list nested) : str := pieces_text (map (with_holes Hash) t).

  Lemma all_requests_app : forall a b, all_requests Hash (a ++ b) = all_requests Hash a ++ all_requests Hash b.
  Proof. intros. unfold all_requests. rewrite map_app, concat_app. auto. Qed.
  Lemma holes_app : forall a b, holes (a ++ b) = holes a ++ holes b.
  Proof. intros. unfold holes. rewrite map_app, pieces_app. auto. Qed.

  (** What was asked and how it ended *)
  Definition outcome (st : tstate) (tree : list nested) (st' : tstate) (r : res str) : Prop :=
    exists asked rest, all_requests Hash tree = asked ++ rest /\ requests st' = rev asked ++ requests st /\
      ((r = Ok (holes tree) /\ rest = []) \/
       (r = Err /\ exists before q, asked = before ++ [q] /\ service (rev before ++ requests st) q = None)).

  Lemma outcome_char : forall st c tree st' r, outcome st tree st' r -> outcome st (Plain c :: tree) st' (let! x := r in Ok (c :: x)).
  Proof.
    intros st c tree st' r (asked & rest & A & B & [[-> ->]|[-> H]]).
    - exists asked, []. repeat split; auto.
    - exists asked, rest. repeat split; auto.
  Qed.

  Lemma outcome_nil : forall st, outcome st [] st (Ok []).
  Proof. intros st. exists [], []. auto. Qed.

  Lemma outcome_braces : forall st t1 t2 st1 r1, outcome st t1 st1 r1 ->
    (forall st2, outcome st2 t2 (fst (st2, tt)) (Err) -> True) ->
    forall n s2, (forall st2, exists st3 r3, scan n st2 s2 = (st3, r3) /\ outcome st2 t2 st3 r3) ->
    exists st3 r3,
      match (st1, let! x := r1 in Ok (x ++ cc)) with
      | (st1, Ok inner) =>
          match evaluate st1 (oo ++ inner) with
          | (st2, Ok p) => let (st3, r) := scan n st2 s2 in (st3, let! x := r in Ok (p ++ x))
          | (st2, r) => (st2, r)
          end
      | (st1, r) => (st1, r)
      end = (st3, r3) /\ outcome st (Braces t1 :: t2) st3 r3.
  Proof.
    intros st t1 t2 st1 r1 (asked & rest & A & B & C) _ n s2 H.
    assert (Q : all_requests Hash (Braces t1 :: t2) = all_requests Hash t1 ++ request Hash t1 :: all_requests Hash t2).
    { unfold all_requests. cbn [map concat requests_of]. rewrite <- app_assoc. auto. }
    destruct C as [[-> ->]|[-> (before & q & D & E)]]; cbn [bind].
    - rewrite app_nil_r in A. subst asked. change (oo ++ holes t1 ++ cc) with (request Hash t1).
      unfold TemplateModel.evaluate. destruct (service (requests st1) (request Hash t1)) as [v|] eqn:V; cbn [requests placeholders].
      + destruct (H (mkTState (request Hash t1 :: requests st1) ((Hash (request Hash t1), v) :: placeholders st1))) as (st3 & r3 & -> & asked & rest & A & B' & C).
        exists st3, (let! x := r3 in Ok (placeholder (Hash (request Hash t1)) ++ x)). split; auto.
        exists (all_requests Hash t1 ++ request Hash t1 :: asked), rest. split; [|split].
        * rewrite Q, A, <- app_assoc. auto.
        * rewrite B', rev_app_distr. cbn [rev requests]. rewrite B, <- !app_assoc. auto.
        * cbn [requests] in *. destruct C as [[-> ->]|[-> (before & q & -> & E)]]; [left; auto|right]. split; auto.
          exists (all_requests Hash t1 ++ request Hash t1 :: before), q. rewrite <- app_assoc. split; auto.
          rewrite rev_app_distr. cbn [rev]. rewrite <- !app_assoc. cbn [app]. rewrite B in E. auto.
      + eexists _, _. split; [reflexivity|]. exists (all_requests Hash t1 ++ [request Hash t1]), (all_requests Hash t2). split; [|split].
        * rewrite Q, <- app_assoc. auto.
        * cbn [requests]. rewrite B, rev_app_distr. auto.
        * right. split; auto. exists (all_requests Hash t1), (request Hash t1). split; auto. rewrite <- B. auto.
    - eexists _, _. split; [reflexivity|]. exists asked, (rest ++ request Hash t1 :: all_requests Hash t2). split; [|split]; auto.
      + rewrite Q, A, <- app_assoc. auto.
      + right. split; auto. exists before, q. auto.
  Qed.

  Lemma reading_cons_text : forall x s l, reading oo cc (x :: s) (Other x :: l) -> reading oo cc s l /\ has_prefix oo (x :: s) = false.
  Proof. intros x s l R. inversion R as [E|s' l' N R' E|s' l' D R' E|y s' l' N1 N2 R' E]; subst. auto. Qed.

  Lemma scan_short : forall n st s, length s <= 2 -> scan (S n) st s = (st, Ok s).
  Proof. intros n st s L. cbn [scan]. destruct (Nat.ltb_spec 2 (length s)); auto. lia. Qed.

  Lemma scan_char : forall n st c s, length (c :: s) < S n -> has_prefix oo (c :: s) = false ->
    scan (S n) st (c :: s) = let (st, r) := scan n st s in (st, let! x := r in Ok (c :: x)).
  Proof.
    intros n st c s Ln P. cbn [scan]. destruct (Nat.ltb_spec 2 (length (c :: s))) as [L|L]; [rewrite P; auto|].
    destruct n as [|n]; [cbn in Ln; lia|]. rewrite scan_short; [|cbn in L; lia]. reflexivity.
  Qed.

  Lemma read_split : forall l1 s l2, reading oo cc s (l1 ++ l2) -> exists s2, s = items_text oo cc l1 ++ s2 /\ reading oo cc s2 l2.
  Proof.
    induction l1 as [|i l1 IH]; intros s l2 R; [exists s; auto|].
    cbn [app] in R. inversion R as [E|s' l N R' E|s' l D R' E|y s' l N1 N2 R' E]; subst;
      (destruct (IH _ _ R') as (s2 & -> & R2); exists s2; split; auto).
  Qed.

  Theorem scan_closed : forall n st s l tree, length s < n -> reading oo cc s l -> closed l tree ->
    exists st' r, scan n st s = (st', r) /\ outcome st tree st' r.
  Proof.
    induction n as [n IHn] using lt_wf_ind; intros st s l tree Ln R C. destruct n as [|n]; [lia|].
    assert (IH := IHn n (Nat.lt_succ_diag_r n)).
    destruct C as [|x l t H|l t H| |l1 l2 t1 t2 B H1 H2].
    - inversion R; subst. exists st, (Ok []). split; [reflexivity|apply outcome_nil].
    - inversion R as [E|s' l' N R' E|s' l' D R' E|y s' l' N1 N2 R' E]; subst. rewrite scan_char by auto.
      destruct (IH st s' l t) as (st' & r & -> & O); [cbn in Ln; lia|auto|auto|].
      eexists _, _. split; [reflexivity|]. apply outcome_char. auto.
    - inversion R as [E|s' l' N R' E|s' l' D R' E|y s' l' N1 N2 R' E]; subst. cbn [app] in *.
      rewrite scan_char by (auto; reflexivity). destruct n as [|n]; [cbn in Ln; lia|].
      assert (X : has_prefix oo ("}"%char :: s') = false) by reflexivity.
      rewrite scan_char; [|cbn in *; lia|exact X].
      destruct (IHn n) with (st := st) (s := s') (l := l) (tree := t) as (st' & r & -> & O); [lia|cbn in Ln; lia|auto|auto|].
      eexists _, _. split; [reflexivity|]. apply outcome_char, outcome_char. auto.
    - apply reading_text in R. cbn in R. subst s. rewrite scan_short by (cbn; lia). exists st, (Ok oo). split; auto.
      exists [], []. repeat split. left. split; reflexivity.
    - assert (Rs : exists s', s = oo ++ s'). { inversion R; subst; eauto. } destruct Rs as (s' & ->).
      apply close_at in R as (R & E & F); auto. cbn [scan].
      destruct (Nat.ltb_spec 2 (length (oo ++ s'))) as [L|L]; [|rewrite E, !app_length in L; cbn [length] in L; lia].
      replace (has_prefix oo (oo ++ s')) with true by reflexivity. rewrite F.
      replace (2 + length (items_text oo cc l1) + 2) with (length (oo ++ items_text oo cc l1 ++ cc)) by (rewrite !app_length; cbn [length]; lia).
      replace (oo ++ s') with ((oo ++ items_text oo cc l1 ++ cc) ++ items_text oo cc l2) in * by (rewrite E, <- !app_assoc; auto).
      rewrite firstn_app, firstn_all, Nat.sub_diag, skipn_pre. cbn [firstn]. rewrite app_nil_r.
      change (skipn 2 (oo ++ items_text oo cc l1 ++ cc)) with (items_text oo cc l1 ++ cc).
      rewrite !app_length in Ln. cbn [length] in Ln.
      destruct (IH st (items_text oo cc l1 ++ cc) (l1 ++ [Closing]) (t1 ++ [Plain "}"; Plain "}"]%char)) as (st1 & r1 & E1 & O1).
      { rewrite app_length. cbn [length]. lia. }
      { replace (items_text oo cc l1 ++ cc) with (items_text oo cc (l1 ++ [Closing])) by (rewrite items_app; auto).
        eapply reading_prefix; eauto. rewrite <- app_assoc. reflexivity. }
      { apply closed_app; auto. apply closed_stray. apply closed_end. }
      rewrite E1.
      assert (O1' : exists r, r1 = (let! x := r in Ok (x ++ cc)) /\ outcome st t1 st1 r).
      { destruct O1 as (asked & rest & A & Bq & C). rewrite all_requests_app in A. cbn in A. rewrite app_nil_r in A.
        destruct C as [[-> ->]|[-> C]].
        - exists (Ok (holes t1)). split; [rewrite holes_app; reflexivity|]. exists asked, []. auto.
        - exists Err. split; auto. exists asked, rest. auto. }
      destruct O1' as (r & -> & O1').
      apply (outcome_braces st t1 t2 st1 r O1'); auto.
      intros st2. apply (IH st2 (items_text oo cc l2) l2 t2); auto; [lia|].
      change (l1 ++ Closing :: l2) with (l1 ++ [Closing] ++ l2) in R. rewrite app_assoc in R.
      apply read_split in R as (s2 & Es & R2). rewrite items_app, <- app_assoc, E in Es. 
      apply app_inv_head in Es. cbn in Es. injection Es as ->. auto.
  Qed.
  (** ** Requests *)

  Definition good_request (q : str) : Prop := exists body, q = oo ++ body ++ cc /\ contains oo (body ++ cc) = false.

  Lemma first_brace : forall l tree, closed l tree -> forall s, reading oo cc s l -> forall x, holes tree = "{"%char :: x -> exists y, s = "{"%char :: y.
  Proof.
    intros l tree C s R x E. destruct C as [|c l t H|l t H| |l1 l2 t1 t2 B H1 H2]; try discriminate E.
    - inversion R; subst; try discriminate. unfold holes in E. cbn [map with_holes] in E. rewrite pieces_cons in E.
      cbn [piece_text app] in E. injection E as -> _. eauto.
    - apply reading_text in R. subst s. cbn. eauto.
  Qed.

  Lemma no_brace_app : forall w s a b, ~ In "{"%char w -> w ++ s = a ++ oo ++ b -> exists a', s = a' ++ oo ++ b.
  Proof.
    induction w as [|c w IH]; intros s a b N E; [eauto|]. destruct a as [|x a].
    - injection E as -> _. exfalso. apply N. left. auto.
    - cbn [app] in E. injection E as -> E. apply (IH s a b); auto. intros I. apply N. right. auto.
  Qed.

  Lemma only_last : forall l tree, closed l tree -> forall s, reading oo cc s l -> forall a b, holes tree = a ++ oo ++ b -> b = [].
  Proof.
    induction 1 as [|c l t H IH|l t H IH| |l1 l2 t1 t2 B H1 IH1 H2 IH2]; intros s R a b E.
    - destruct a; discriminate.
    - inversion R as [E'|s' l' N R' E'|s' l' D R' E'|y s' l' N1 N2 R' E']; subst.
      change (holes (Plain c :: t)) with (c :: holes t) in E. destruct a as [|x a].
      + cbn [app] in E. injection E as -> E. destruct (first_brace l t H s' R' (b) E) as (z & ->). discriminate N1.
      + cbn [app] in E. injection E as -> E. eapply IH; eauto.
    - inversion R as [E'|s' l' N R' E'|s' l' D R' E'|y s' l' N1 N2 R' E']; subst.
      change (holes (Plain "}" :: Plain "}" :: t)) with (cc ++ holes t) in E.
      apply no_brace_app in E as (a' & E); [eapply IH; eauto|]. cbn. intuition discriminate.
    - destruct a as [|x [|y [|z a]]]; try discriminate E. injection E as <-. auto.
    - change (holes (Braces t1 :: t2)) with (placeholder (Hash (request Hash t1)) ++ holes t2) in E.
      apply no_brace_app in E as (a' & E); [|apply placeholder_word; auto].
      cbn [app] in R. change (Opening :: l1 ++ Closing :: l2) with ((Opening :: l1) ++ Closing :: l2) in R.
      apply read_split in R as (s2 & -> & R2). inversion R2; subst. eapply IH2; eauto.
  Qed.

  Lemma request_good : forall l1 t1 s, balanced l1 -> closed l1 t1 -> reading oo cc s l1 -> reading oo cc (s ++ cc) (l1 ++ [Closing]) ->
    good_request (request Hash t1).
  Proof.
    intros l1 t1 s B C R R'. exists (holes t1). split; auto. apply contains_false. intros a b E.
    assert (C' : closed (l1 ++ [Closing]) (t1 ++ [Plain "}"; Plain "}"]%char)).
    { apply closed_app; auto. apply closed_stray. apply closed_end. }
    assert (b = []).
    { eapply (only_last _ _ C' _ R' a b). rewrite holes_app. exact E. }
    subst b. rewrite app_nil_r in E. apply (f_equal (@rev ascii)) in E. rewrite !rev_app_distr in E. discriminate E.
  Qed.

  Lemma read_pair : forall s l1 l2, reading oo cc s (l1 ++ Closing :: l2) ->
    reading oo cc (items_text oo cc l1) l1 /\ reading oo cc (items_text oo cc l1 ++ cc) (l1 ++ [Closing]).
  Proof.
    intros s l1 l2 R. split; [eapply reading_prefix; eauto|].
    replace (items_text oo cc l1 ++ cc) with (items_text oo cc (l1 ++ [Closing])) by (rewrite items_app; auto).
    eapply reading_prefix; eauto. rewrite <- app_assoc. reflexivity.
  Qed.

  Lemma requests_good : forall l tree, closed l tree -> forall s, reading oo cc s l -> Forall good_request (all_requests Hash tree).
  Proof.
    induction 1 as [|c l t H IH|l t H IH| |l1 l2 t1 t2 B H1 IH1 H2 IH2]; intros s R.
    - constructor.
    - inversion R; subst. eapply IH; eauto.
    - inversion R; subst. eapply IH; eauto.
    - constructor.
    - inversion R; subst. match goal with K : reading oo cc _ (l1 ++ Closing :: l2) |- _ => rename K into Rs end.
      apply read_pair in Rs as X. destruct X as [X1 X2]. apply read_split in Rs as (s2 & -> & R2). inversion R2; subst.
      unfold all_requests. cbn [map concat requests_of]. rewrite !Forall_app. repeat split.
      + eapply IH1; eauto.
      + constructor; [|constructor]. eapply request_good; eauto.
      + eapply IH2; eauto.
  Qed.

  (** Whatever the text and the answers are *)
  Theorem scan_general : forall n st s l, length s < n -> reading oo cc s l ->
    exists st' r new, scan n st s = (st', r) /\ requests st' = new ++ requests st /\ Forall good_request new /\
      (r = Err \/ exists x tree, r = Ok x /\ closed l tree).
  Proof.
    induction n as [n IHn] using lt_wf_ind; intros st s l Ln R. destruct n as [|n]; [lia|].
    assert (IH := IHn n (Nat.lt_succ_diag_r n)).
    inversion R as [E|s' l' N R' E|s' l' D R' E|y s' l' N1 N2 R' E]; subst.
    - exists st, (Ok []), []. repeat split; auto. right. exists [], []. split; auto. constructor.
    - destruct (Nat.ltb_spec 2 (length (oo ++ s'))) as [L|L].
      + cbn [scan]. destruct (Nat.ltb_spec 2 (length (oo ++ s'))) as [_|Q]; [|lia]. replace (has_prefix oo (oo ++ s')) with true by reflexivity.
        destruct (FindCorrespondingCloseToken (oo ++ s') 2 oo cc) as [e|] eqn:F.
        2:{ exists st, Err, []. repeat split; auto. }
        apply close_found in F as (l1 & l2 & R1 & B & -> & -> & R2).
        assert (l' = l1 ++ Closing :: l2) by (eapply reading_det; [| |exact R'|exact R1]; auto). subst l'.
        destruct (balanced_closed l1 B) as (t1 & C1).
        destruct (read_pair _ _ _ R1) as [X1 X2].
        replace (2 + length (items_text oo cc l1) + 2) with (length (oo ++ items_text oo cc l1 ++ cc)) by (rewrite !app_length; cbn [length]; lia).
        set (i1 := items_text oo cc l1) in *. set (i2 := items_text oo cc l2) in *.
        replace (oo ++ i1 ++ cc ++ i2) with ((oo ++ i1 ++ cc) ++ i2) in * by (rewrite <- !app_assoc; auto).
        rewrite firstn_app, firstn_all, Nat.sub_diag, skipn_pre. cbn [firstn]. rewrite app_nil_r.
        change (skipn 2 (oo ++ i1 ++ cc)) with (i1 ++ cc). rewrite !app_length in Ln. cbn [length] in Ln.
        assert (C1' : closed (l1 ++ [Closing]) (t1 ++ [Plain "}"; Plain "}"]%char)).
        { apply closed_app; auto. apply closed_stray. apply closed_end. }
        destruct (scan_closed n st (i1 ++ cc) _ _ ltac:(rewrite app_length; cbn [length]; lia) X2 C1') as (st1 & r1 & -> & asked & rest & A & Bq & O).
        assert (G : Forall good_request (rev asked)).
        { apply Forall_rev. pose proof (requests_good _ _ C1' _ X2) as G. rewrite A in G. apply Forall_app in G as [G _]. auto. }
        destruct O as [[-> ->]|[-> O]].
        2:{ exists st1, Err, (rev asked). repeat split; auto. }
        rewrite holes_app. change (holes [Plain "}"; Plain "}"]%char) with cc. change (oo ++ holes t1 ++ cc) with (request Hash t1).
        assert (Gq : good_request (request Hash t1)) by (eapply request_good; eauto).
        unfold TemplateModel.evaluate. destruct (service (requests st1) (request Hash t1)) as [v|] eqn:V; cbn [requests placeholders].
        2:{ eexists _, _, (request Hash t1 :: rev asked). repeat split; auto. cbn [requests app]. rewrite Bq. auto. }
        destruct (IH (mkTState (request Hash t1 :: requests st1) ((Hash (request Hash t1), v) :: placeholders st1)) i2 l2)
          as (st3 & r3 & new & -> & Rq & Gn & O); auto; [lia|]. cbn [requests] in Rq.
        eexists _, _, (new ++ request Hash t1 :: rev asked). split; [reflexivity|]. split; [|split].
        * rewrite Rq, Bq, <- app_assoc. auto.
        * apply Forall_app. split; auto.
        * destruct O as [->|(x & tree & -> & C)]; [left; auto|right]. exists (placeholder (Hash (request Hash t1)) ++ x), (Braces t1 :: tree). split; auto.
          apply closed_pair; auto.
      + destruct s' as [|z s']; [|cbn in L; lia]. inversion R'; subst. rewrite scan_short by auto.
        exists st, (Ok (oo ++ [])), []. repeat split; auto. right. exists oo, [Plain "{"; Plain "{"]%char. split; auto. constructor.
    - cbn [app] in *. rewrite scan_char by (auto; reflexivity). destruct n as [|n]; [cbn in Ln; lia|].
      assert (X : has_prefix oo ("}"%char :: s') = false) by reflexivity.
      rewrite scan_char; [|cbn in *; lia|exact X].
      destruct (IHn n) with (st := st) (s := s') (l := l') as (st' & r & new & -> & Rq & G & O); [lia|cbn in Ln; lia|auto|].
      eexists _, _, new. split; [reflexivity|]. split; [|split]; auto.
      destruct O as [->|(x & tree & -> & C)]; [left; auto|right]. eexists _, (Plain "}" :: Plain "}" :: tree)%char. split; [reflexivity|]. constructor. auto.
    - rewrite scan_char by auto.
      destruct (IH st s' l') as (st' & r & new & -> & Rq & G & O); [cbn in Ln; lia|auto|].
      eexists _, _, new. split; [reflexivity|]. split; [|split]; auto.
      destruct O as [->|(x & tree & -> & C)]; [left; auto|right]. eexists _, (Plain y :: tree). split; [reflexivity|]. constructor. auto.
  Qed.
End Scan.
