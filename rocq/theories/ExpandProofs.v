(** * Proofs about the expansion of texts *)

From Coq Require Import Ascii String.
From Coq Require Import List Arith Bool Lia.
From Verif Require Import GoStr GoStrFacts TextFacts BracketModel TokenModel TokenSpec ParagraphModel ParagraphProofs TokenProofs PassSpec ExpandModel ExpandSpec.
Import ListNotations.
Local Open Scope list_scope.

Definition body (l : list (str * str)) : str := concat (map (fun p => fst p ++ snd p) l).

Lemma layout_eq : forall s l, layout_text (s, l) = s ++ body l.
Proof. reflexivity. Qed.

Lemma body_cons : forall k s l, body ((k, s) :: l) = k ++ s ++ body l.
Proof. intros k s l. unfold body. cbn [map concat fst snd]. rewrite <- app_assoc. reflexivity. Qed.

(** ** The loop *)

Lemma close_here : forall b r i, ~ In "$"%char b -> findClose_go false !"$$" !"$$" (b ++ !"$$" ++ r) 0 0 i = Some (i + length b).
Proof.
  induction b as [|c b IH]; intros r i H.
  - cbn [app length]. rewrite Nat.add_0_r. reflexivity.
  - change ((c :: b) ++ !"$$" ++ r) with (c :: (b ++ !"$$" ++ r)). cbn [findClose_go].
    change (tokens_differ false !"$$" !"$$") with false. cbn [andb]. unfold at_token.
    rewrite (has_prefix_neq "$" !"$" c); [|intros E; apply H; left; auto]. rewrite IH by (intros I; apply H; right; auto). cbn [length]. f_equal. lia.
Qed.

Lemma go_skip : forall A (g : ExpansionHandler A) et x s t, expandString_go g et (x ++ s) (length x) t = expandString_go g et s 0 t.
Proof.
  intros A g et x. induction x as [|c x IH]; intros s t; [destruct s; reflexivity|]. cbn [app length expandString_go]. apply IH.
Qed.

Section Segments.
Context {A : Type}.
Variable g : ExpansionHandler A.
Variable et : Token -> X A str.

(** The result for a text before the first key, and keys with texts *)
Fixpoint segments (text : str) (l : list (str * str)) : X A str :=
  match l with
  | [] => expandSegment g text
  | (k, s) :: l' =>
      let* before := expandSegment g text in
      match lookup_token k (handlerTokens g) with
      | None => failX Err
      | Some token => let* x := et token in let* rest := segments s l' in retX (before ++ x ++ rest)
      end
  end.

Lemma bindX_ext : forall R T (m : X A R) (f f' : R -> X A T) a, (forall r a, f r a = f' r a) -> bindX m f a = bindX m f' a.
Proof. intros R T m f f' a H. unfold bindX. destruct (m a) as [[r b]| | |]; cbn; auto. Qed.

Lemma go_dollar : forall w text a, expandString_go g et ("$"%char :: "$"%char :: w) 0 text a =
  (let* before := expandSegment g text in
   match findClose_go false !"$$" !"$$" w 0 0 2 with
   | None => failX Panic
   | Some e =>
       match lookup_token (!"$$" ++ sub ("$"%char :: "$"%char :: w) 2 e ++ !"$$") (handlerTokens g) with
       | None => failX Err
       | Some v => let* x := et v in let* rest := expandString_go g et ("$"%char :: w) (S e) [] in retX (before ++ x ++ rest)
       end
   end) a.
Proof. intros w text a. destruct w; reflexivity. Qed.

Lemma go_segments : forall l s text a, ~ In "$"%char s -> Forall (fun p => atom (fst p) /\ ~ In "$"%char (snd p)) l ->
  expandString_go g et (s ++ body l) 0 text a = segments (text ++ s) l a.
Proof.
  induction l as [|[k u] l IH]; intros s.
  - induction s as [|c s IHs]; intros text a H F.
    + rewrite (app_nil_r text). reflexivity.
    + change ((c :: s) ++ body []) with (c :: (s ++ body [])). cbn [expandString_go].
      rewrite (has_prefix_neq "$" !"$" c); [|intros E; apply H; left; auto]. rewrite IHs; auto; [|intros I; apply H; right; auto].
      rewrite <- app_assoc. reflexivity.
  - induction s as [|c s IHs]; intros text a H F.
    + assert (F' := Forall_inv_tail F). destruct (Forall_inv F) as [(b & Ek & N & C) U]. cbn [fst snd] in *. subst k. rewrite (app_nil_r text), body_cons. cbn [app].
      assert (D : ~ In "$"%char b) by (intros I; rewrite Forall_forall in C; apply C in I; vm_compute in I; discriminate).
      match goal with |- expandString_go g et ?x _ _ _ = _ => replace x with ("$"%char :: "$"%char :: b ++ !"$$" ++ u ++ body l) by (cbn [app]; rewrite <- ?app_assoc; reflexivity) end.
      assert (L : length ("$"%char :: b ++ !"$$") = S (2 + length b)) by (cbn [length]; rewrite app_length; cbn; lia).
      rewrite go_dollar, close_here by auto. cbn [segments]. apply bindX_ext. intros before a1.
      match goal with |- context[sub ?x 2 ?y] => replace (sub x 2 y) with b end.
      2: { unfold sub. replace (2 + length b - 2) with (length b) by lia. cbn [skipn]. rewrite firstn_app, firstn_all, Nat.sub_diag. symmetry. apply app_nil_r. }
      destruct (lookup_token _ _) as [token|]; auto. apply bindX_ext. intros x a2. rewrite <- L.
      match goal with |- context[expandString_go g et ?x] => replace x with (("$"%char :: b ++ !"$$") ++ u ++ body l) by (cbn [app]; rewrite <- app_assoc; reflexivity) end.
      unfold bindX. rewrite go_skip. rewrite IH by auto. reflexivity.
    + change ((c :: s) ++ body ((k, u) :: l)) with (c :: (s ++ body ((k, u) :: l))). cbn [expandString_go].
      rewrite (has_prefix_neq "$" !"$" c); [|intros E; apply H; left; auto]. rewrite IHs; auto; [|intros I; apply H; right; auto].
      rewrite <- app_assoc. reflexivity.
Qed.
End Segments.

(** ** The regular expression *)

Lemma has_token_none : forall s, ~ In "$"%char s -> has_token s = false.
Proof.
  induction s as [|c s IH]; intros H; auto. cbn [has_token]. rewrite IH by (intros I; apply H; right; auto).
  unfold token_here. rewrite has_prefix_neq; auto. intros E. apply H. left. auto.
Qed.

Lemma span_all : forall f a b, Forall (fun c => f c = true) a -> (forall c b', b = c :: b' -> f c = false) -> span f (a ++ b) = (a, b).
Proof.
  intros f a b H N. induction H as [|c a C H IH].
  - destruct b as [|c b']; auto. cbn. rewrite (N c b'); auto.
  - cbn [app span]. rewrite C, IH. auto.
Qed.

Lemma token_here_key : forall ty n r, type_ok ty -> token_here (token_key ty n ++ r) = true.
Proof.
  intros ty n r [N F]. unfold token_here, token_key. rewrite <- !app_assoc.
  change (has_prefix !"$$TOKEN_" (!"$$TOKEN_" ++ ty ++ !"_" ++ itoa n ++ !"$$" ++ r)) with true. cbn [andb].
  change (skipn 8 (!"$$TOKEN_" ++ ty ++ !"_" ++ itoa n ++ !"$$" ++ r)) with (ty ++ !"_" ++ itoa n ++ !"$$" ++ r).
  replace (ty ++ !"_" ++ itoa n ++ !"$$" ++ r) with ((ty ++ !"_" ++ itoa n) ++ !"$$" ++ r) by (rewrite <- !app_assoc; auto).
  rewrite span_all.
  - rewrite andb_true_iff. split; [|reflexivity]. apply token_middle_spec. exists ty, (itoa n). repeat split; auto using itoa_nonempty.
    + rewrite Forall_forall in F. exact F.
    + apply Forall_forall, itoa_digits.
  - apply Forall_app. split; auto. apply Forall_app. split; [repeat constructor|]. eapply Forall_impl; [|apply itoa_digits]. intros c. apply is_digit_token.
  - intros c b' E. injection E as <- _. reflexivity.
Qed.

Lemma has_token_key : forall s k r, is_key k -> has_token (s ++ k ++ r) = true.
Proof.
  induction s as [|c s IH]; intros k r (ty & n & T & ->).
  - cbn [app]. assert (H := token_here_key ty n r T). destruct (token_key ty n ++ r) as [|c s] eqn:E; [discriminate|]. cbn [has_token]. rewrite H. auto.
  - cbn [app has_token]. rewrite IH; [apply orb_true_r|]. exists ty, n. auto.
Qed.

(** ** Markers *)

Lemma plain_app : forall a b, plain_text a -> plain_text b -> plain_text (a ++ b).
Proof.
  intros a b [A1 A2] [B1 B2]. split; [intros I; apply in_app_iff in I; destruct I; auto|].
  destruct A2 as [A2|(c & I & C)]; [destruct B2 as [B2|(c & I & C)]|].
  - left. intros I. apply in_app_iff in I. destruct I; auto.
  - right. exists c. split; auto. apply in_app_iff. auto.
  - right. exists c. split; auto. apply in_app_iff. auto.
Qed.

Lemma replace_over : forall a h x r, (forall y z, x = y ++ z -> z <> [] -> has_prefix a (z ++ r) = false) ->
  replace_all a h (x ++ r) = x ++ replace_all a h r.
Proof.
  intros a h x r. induction x as [|c x IH]; intros H; auto. cbn [app]. rewrite replace_all_cons; [|apply (H [] (c :: x)); auto; discriminate].
  f_equal. apply IH. intros y z -> N. apply (H (c :: y) z); auto.
Qed.

(** A marker with its name *)
Definition name_ok (n : str) : Prop := n <> [] /\ Forall capital n /\ In "_"%char n.
Definition mark_of (n : str) : str := !"$$" ++ n ++ !"$$".

Lemma capital_dollar : forall c, capital c -> c <> "$"%char.
Proof. intros c [->|H] E; [discriminate|]. subst. vm_compute in H. repeat (destruct H as [H|H]; [discriminate|]). destruct H. Qed.

Lemma name_dollar : forall n, name_ok n -> ~ In "$"%char n.
Proof. intros n (_ & F & _) I. rewrite Forall_forall in F. apply F, capital_dollar in I. auto. Qed.

Lemma name_not_plain : forall n, name_ok n -> ~ plain_text n.
Proof. intros n (_ & F & U) [_ [N|(c & I & C)]]; auto. rewrite Forall_forall in F. auto. Qed.

Lemma same_word : forall (a b x y : str), ~ In "$"%char a -> ~ In "$"%char b -> a ++ "$"%char :: x = b ++ "$"%char :: y -> a = b.
Proof.
  induction a as [|c a IH]; intros [|d b] x y A B E; auto; cbn in E.
  - injection E as E _. exfalso. apply B. left. auto.
  - injection E as E _. exfalso. apply A. left. auto.
  - injection E as -> E. f_equal. apply (IH b x y); auto; intros I; [apply A|apply B]; right; auto.
Qed.

Section Mark.
Variable n h : str.
Hypothesis nok : name_ok n.
Let a := mark_of n.

Lemma mark_text : forall s r, ~ In "$"%char s -> replace_all a h (s ++ r) = s ++ replace_all a h r.
Proof.
  intros s r D. apply replace_over. intros y z -> N. destruct z as [|c z]; [destruct N; auto|]. cbn [app].
  unfold a, mark_of. cbn [app list_ascii_of_string]. apply has_prefix_neq. intros E. apply D, in_app_iff. right. left. auto.
Qed.

Lemma not_rest : forall s q, plain_text s -> (q = [] \/ exists q', q = "$"%char :: q') -> has_prefix (n ++ !"$$") (s ++ q) = false.
Proof.
  intros s q P Q. apply has_prefix_false. intros t E. rewrite <- app_assoc in E. assert (ND := name_dollar n nok).
  destruct P as [D P]. destruct Q as [->|(q' & ->)].
  - rewrite app_nil_r in E. apply D. rewrite E. apply in_app_iff. right. left. auto.
  - change (!"$$" ++ t) with ("$"%char :: "$"%char :: t) in E.
    assert (X := same_word _ _ _ _ D ND E).
    subst s. apply (name_not_plain n nok). split; auto.
Qed.

Lemma mark_key : forall k s q, atom k -> k <> a -> plain_text s -> (q = [] \/ exists c q', q = "$"%char :: "$"%char :: c :: q' /\ c <> "$"%char) ->
  replace_all a h (k ++ s ++ q) = k ++ replace_all a h (s ++ q).
Proof.
  intros k s q (b & -> & N & F) K P Q. destruct b as [|b0 b]; [destruct N; auto|].
  assert (D : ~ In "$"%char (b0 :: b)) by (intros I; rewrite Forall_forall in F; apply F in I; vm_compute in I; discriminate).
  assert (D0 : b0 <> "$"%char) by (intros E; apply D; left; auto).
  assert (ND := name_dollar _ nok).
  apply replace_over. intros y z E Z. apply not_true_iff_false. intros H. apply has_prefix_spec in H as [t T].
  unfold a, mark_of in T. cbn [app list_ascii_of_string] in T.
  assert (R : s ++ q = (n ++ !"$$") ++ t -> False).
  { intros R. assert (X : has_prefix (n ++ !"$$") (s ++ q) = true) by (apply has_prefix_spec; eauto).
    rewrite not_rest in X; [discriminate|auto|]. destruct Q as [->|(c & q' & -> & _)]; eauto. }
  destruct y as [|y0 y].
  - (* at the key *)
    cbn [app] in E. subst z. cbn [app list_ascii_of_string] in T. injection T as T.
    assert (X : b0 :: b = n).
    { apply (same_word (b0 :: b) n ("$"%char :: s ++ q) ("$"%char :: t)); auto. rewrite <- !app_assoc in T. exact T. }
    apply K. unfold a, mark_of. rewrite <- X. reflexivity.
  - cbn [app] in E. injection E as <- E. destruct y as [|y1 y].
    + cbn [app] in E. subst z. cbn [app] in T. injection T as T1 T2. congruence.
    + injection E as <- E. change (b0 :: b ++ ["$"%char; "$"%char]) with ((b0 :: b) ++ ["$"%char; "$"%char]) in E.
      destruct (app_app_cases _ _ _ _ E) as [(x & E1 & E2)|(x & E1 & E2)].
      * (* y = b ++ x *) subst y. destruct x as [|x0 x].
        -- cbn [app] in E2. subst z. cbn [app] in T. injection T as T. auto.
        -- cbn [app] in E2. injection E2 as <- E2. destruct x as [|x1 x].
           ++ cbn [app] in E2. subst z. cbn [app] in T. injection T as T. destruct s as [|s0 s].
              ** cbn [app] in T. destruct Q as [->|(c & q' & -> & C)]; [discriminate|]. injection T as T2.
                 destruct nok as (NN & NF & _). destruct n as [|n0 n']; [destruct NN; auto|]. apply Forall_inv in NF. apply capital_dollar in NF. cbn [app] in T2. congruence.
              ** cbn [app] in T. injection T as T1 _. destruct P as [P _]. apply P. left. auto.
           ++ injection E2 as <- E2. destruct x; cbn in E2; [subst; destruct Z; auto|discriminate].
      * (* inside the name *) destruct x as [|x0 x].
        -- rewrite app_nil_r in E1. subst y. cbn [app] in E2. subst z. cbn [app] in T. injection T as T. auto.
        -- subst z. cbn [app] in T. injection T as T1 _. apply D. rewrite E1. apply in_app_iff. right. left. auto.
Qed.

(** The marker is replaced *)
Fixpoint merge (s : str) (l : list (str * str)) : layout :=
  match l with
  | [] => (s, [])
  | (k, u) :: l' => if str_eqb k a then merge (s ++ h ++ u) l' else let d := merge u l' in (s, (k, fst d) :: snd d)
  end.

Lemma merge_app : forall l x s, merge (x ++ s) l = (x ++ fst (merge s l), snd (merge s l)).
Proof.
  induction l as [|[k u] l IH]; intros x s; auto. cbn [merge]. destruct (str_eqb k a); [|reflexivity].
  rewrite <- app_assoc. apply IH.
Qed.

Lemma body_form : forall l, Forall (fun p => atom (fst p) /\ plain_text (snd p)) l -> body l = [] \/ exists c q', body l = "$"%char :: "$"%char :: c :: q' /\ c <> "$"%char.
Proof.
  intros [|[k u] l] F; [auto|]. right. destruct (Forall_inv F) as [(b & Ek & N & C) U]. rewrite body_cons. cbn [fst] in *. subst k.
  destruct b as [|c b]; [destruct N; auto|]. cbn [app list_ascii_of_string]. exists c. eexists. split; [reflexivity|].
  apply Forall_inv in C. apply token_not_dollar; auto.
Qed.

Lemma merge_text : forall l s, plain_text s -> Forall (fun p => atom (fst p) /\ plain_text (snd p)) l ->
  replace_all a h (s ++ body l) = layout_text (merge s l).
Proof.
  induction l as [|[k u] l IH]; intros s P F; rewrite mark_text by apply P.
  - reflexivity.
  - assert (F' := Forall_inv_tail F). destruct (Forall_inv F) as [K U]. cbn [fst snd] in *. rewrite body_cons. cbn [merge]. destruct (str_eqb k a) eqn:E.
    + apply str_eqb_eq in E. subst k. rewrite replace_all_hit by discriminate. rewrite IH by auto. rewrite merge_app, merge_app.
      unfold layout_text. cbn [fst snd]. rewrite <- !app_assoc. reflexivity.
    + apply str_eqb_neq in E. rewrite mark_key by (auto using body_form). rewrite IH by auto.
      unfold layout_text. cbn [fst snd map concat]. rewrite <- !app_assoc. reflexivity.
Qed.

Hypothesis hplain : plain_text h.

Lemma merge_ok : forall (P : str -> Prop) l s, plain_text s -> Forall (fun p => P (fst p) /\ plain_text (snd p)) l ->
  plain_text (fst (merge s l)) /\ Forall (fun p => (P (fst p) /\ fst p <> a) /\ plain_text (snd p)) (snd (merge s l)).
Proof.
  intros P l. induction l as [|[k u] l IH]; intros s Ps F; [split; [auto|constructor]|].
  assert (F' := Forall_inv_tail F). destruct (Forall_inv F) as [K U]. cbn [fst snd merge] in *. destruct (str_eqb k a) eqn:E.
  - apply IH; auto using plain_app.
  - apply str_eqb_neq in E. destruct (IH u U F') as [I1 I2]. cbn [fst snd]. split; auto.
Qed.

(** What the keys stand for *)
Lemma merge_filled : forall (P : str -> str -> Prop) l s hs, (forall x, P a x -> x = h) -> Forall2 P (map fst l) hs ->
  exists hs', Forall2 P (map fst (snd (merge s l))) hs' /\ filled (merge s l) hs' = filled (s, l) hs.
Proof.
  intros P l. induction l as [|[k u] l IH]; intros s hs H F.
  - inversion F; subst. exists []. split; [constructor|reflexivity].
  - cbn [map fst] in F. inversion F as [|? x ? hs1 Px F']; subst. cbn [merge]. destruct (str_eqb k a) eqn:E.
    + apply str_eqb_eq in E. subst k. apply H in Px. subst x. destruct (IH (s ++ h ++ u) hs1 H F') as (hs' & F2 & E2). exists hs'. split; auto.
      rewrite E2. unfold filled. cbn [fst snd map combine concat]. rewrite <- !app_assoc. reflexivity.
    + destruct (IH u hs1 H F') as (hs' & F2 & E2). exists (x :: hs'). cbn [map fst snd]. split; [constructor; auto|].
      unfold filled in *. cbn [fst snd map combine concat] in *. rewrite <- !app_assoc. f_equal. f_equal. exact E2.
Qed.

Lemma merge_keys : forall l s k, In k (map fst (snd (merge s l))) -> In k (map fst l).
Proof.
  induction l as [|[k u] l IH]; intros s x I; auto. cbn [merge] in I. destruct (str_eqb k a); cbn in *; [|destruct I as [I|I]]; eauto.
Qed.
Lemma merge_keys_in : forall l s k, In k (map fst l) -> k <> a -> In k (map fst (snd (merge s l))).
Proof.
  induction l as [|[k u] l IH]; intros s x I N; auto. cbn [merge]. destruct (str_eqb k a) eqn:E; cbn in *.
  - apply str_eqb_eq in E. destruct I as [I|I]; [congruence|eauto].
  - destruct I as [I|I]; auto.
Qed.
End Mark.

(** ** All markers *)

Definition replace_markers (pairs : list (str * str)) (content : str) : str :=
  fold_left (fun c p => replace_all (mark_of (fst p)) (snd p) c) pairs content.
Definition merge_markers (pairs : list (str * str)) (d : layout) : layout :=
  fold_left (fun d p => merge (fst p) (snd p) (fst d) (snd d)) pairs d.

Definition pairs_ok (pairs : list (str * str)) : Prop := Forall (fun p => name_ok (fst p) /\ plain_text (snd p)) pairs.
Definition keys_plain (P : str -> Prop) (d : layout) : Prop := plain_text (fst d) /\ Forall (fun p => P (fst p) /\ plain_text (snd p)) (snd d).

Lemma markers_replaced : forall pairs d (P : str -> Prop), pairs_ok pairs -> (forall k, P k -> atom k) -> keys_plain P d ->
  replace_markers pairs (layout_text d) = layout_text (merge_markers pairs d) /\
  keys_plain (fun k => P k /\ ~ In k (map (fun p => mark_of (fst p)) pairs)) (merge_markers pairs d).
Proof.
  induction pairs as [|[n h] pairs IH]; intros d P O A K.
  - split; auto. destruct K as [K1 K2]. split; auto. eapply Forall_impl; [|exact K2]. cbn. intros p [X Y]. auto.
  - destruct (Forall_inv O) as [N H]. assert (O' := Forall_inv_tail O). cbn [fst snd] in *. destruct d as [s l]. destruct K as [K1 K2]. cbn [fst snd] in *.
    destruct (merge_ok n h H P l s K1 K2) as [M1 M2].
    destruct (IH (merge n h s l) (fun k => P k /\ k <> mark_of n) O') as [E F].
    + intros k [X _]. auto.
    + split; auto.
    + unfold replace_markers, merge_markers in *. cbn [fold_left fst snd]. rewrite layout_eq, merge_text; auto; [|eapply Forall_impl; [|exact K2]; cbn; intros p [X Y]; auto].
      split; auto. destruct F as [F1 F2]. split; auto. eapply Forall_impl; [|exact F2]. cbn. intros p [[[X Y] Z] W]. split; auto. split; auto.
      intros [I|I]; auto.
Qed.

Lemma markers_filled : forall pairs d (P : str -> str -> Prop) hs, (forall n h x, In (n, h) pairs -> P (mark_of n) x -> x = h) ->
  Forall2 P (map fst (snd d)) hs ->
  exists hs', Forall2 P (map fst (snd (merge_markers pairs d))) hs' /\ filled (merge_markers pairs d) hs' = filled d hs.
Proof.
  induction pairs as [|[n h] pairs IH]; intros [s l] P hs H F.
  - exists hs. auto.
  - destruct (merge_filled n h P l s hs) as (hs1 & F1 & E1); auto; [intros x; apply H; left; auto|].
    destruct (IH (merge n h s l) P hs1) as (hs2 & F2 & E2); auto; [intros m g x I; apply H; right; auto|].
    exists hs2. split; auto. rewrite <- E1. exact E2.
Qed.

Lemma markers_keys : forall pairs d k, In k (map fst (snd (merge_markers pairs d))) <-> In k (map fst (snd d)) /\ ~ In k (map (fun p => mark_of (fst p)) pairs).
Proof.
  induction pairs as [|[n h] pairs IH]; intros [s l] k.
  - cbn. tauto.
  - change (merge_markers ((n, h) :: pairs) (s, l)) with (merge_markers pairs (merge n h s l)). rewrite IH. cbn [map fst In snd]. split.
    + intros [I N]. split; [eapply merge_keys; eauto|]. intros [E|E]; auto. subst k. clear -I.
      revert s I. induction l as [|[k u] l IHl]; intros s I; [destruct I|]. cbn [merge] in I. destruct (str_eqb k (mark_of n)) eqn:E; [eauto|].
      cbn in I. destruct I as [I|I]; [|eauto]. apply str_eqb_neq in E. auto.
    + intros [I N]. split; [apply merge_keys_in; auto; intros E; apply N; auto|]. intros X. apply N. auto.
Qed.
