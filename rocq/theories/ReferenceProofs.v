(** * Proofs about footnotes *)

From Coq Require Import Ascii String.
From Coq Require Import List Arith Bool Lia Sorted.
From Verif Require Import GoStr GoStrFacts TextFacts UtilModel BracketModel TokenModel TableModel TokenSpec TokenProofs PassSpec PassProofs HeadingProofs JudgeProofs.
From Verif Require Import ReferenceModel ReferenceSpec NowikiProofs RefAttrProofs RefTagProofs RefNumberProofs.
Import ListNotations.
Local Open Scope list_scope.

Lemma judge_lift_ok : forall A C b t (r : res A) a (f : A -> M C) R, r = Ok a -> judge b t (f a) R -> judge b t (bindM (lift r) f) R.
Proof. intros A C b t r a f R -> H. exact H. Qed.

(** ** Tags *)

Lemma tag_parts : forall pre b x y, length b = 4 -> ~ In "<"%char x -> ~ In ">"%char x ->
  let content := pre ++ b ++ x ++ !">" ++ y in
  let e := length pre + 4 + length x in
  FindCorrespondingCloseTokenIgnoreCase content (length pre + 4) !"<ref" !">" = Some e /\
  sub content (length pre) (S e) = b ++ x ++ !">" /\ sub content (length pre) e = b ++ x /\ sub content (length pre + 4) e = x /\
  skipn (S e) content = y /\ firstn (length pre) content = pre /\ skipn e content = !">" ++ y.
Proof.
  intros pre b x y B N1 N2 content e. assert (S4 : skipn (length pre + 4) content = x ++ !">" ++ y).
  { unfold content. rewrite app_assoc, <- B, <- app_length. apply skipn_exact. }
  assert (Se : skipn e content = !">" ++ y).
  { unfold e. rewrite <- skipn_skipn_add, S4. apply skipn_exact. }
  split; [|split; [|split; [|split; [|split; [|split]]]]]; auto.
  - unfold FindCorrespondingCloseTokenIgnoreCase, findCorrespondingCloseToken. rewrite S4. apply find_gt; auto.
  - unfold content. replace (b ++ x ++ !">" ++ y) with ((b ++ x ++ !">") ++ y) by (rewrite <- !app_assoc; auto).
    replace (S e) with (length pre + length (b ++ x ++ !">")) by (unfold e; rewrite !app_length, B; cbn [length]; lia). apply sub_exact.
  - unfold content. replace (b ++ x ++ !">" ++ y) with ((b ++ x) ++ !">" ++ y) by (rewrite <- !app_assoc; auto).
    replace e with (length pre + length (b ++ x)) by (unfold e; rewrite !app_length, B; lia). apply sub_exact.
  - unfold sub. rewrite S4. unfold e. replace (length pre + 4 + length x - (length pre + 4)) with (length x) by lia. apply firstn_exact.
  - replace (S e) with (e + 1) by lia. rewrite <- skipn_skipn_add, Se. reflexivity.
  - apply firstn_exact.
Qed.

Lemma attribute_last : forall a, attribute_ok a -> exists z c, attribute_text a = z ++ [c] /\ c <> "/"%char.
Proof.
  intros a (_ & E & _ & U & _). unfold attribute_text. destruct (attr_quoted a).
  - eexists. exists dq_char. rewrite !app_assoc. split; [reflexivity|discriminate].
  - destruct (exists_last E) as (v & c & Ev). rewrite Ev. eexists. exists c. rewrite !app_assoc. split; [reflexivity|]. intros ->. destruct U as [_ U]; auto. apply U. rewrite Ev.
    apply in_or_app. right. left. auto.
Qed.

Lemma attributes_last : forall a, attributes_ok a -> exists z c, !"<ref" ++ attributes_text a = z ++ [c] /\ c <> "/"%char.
Proof.
  intros a [F _]. unfold attributes_text. destruct (spaces a) as [|k] eqn:K.
  - cbn [repeat]. rewrite app_nil_r. destruct (snoc_cases _ (given a)) as [->|(l & b & E)].
    + exists !"<re", "f"%char. split; [reflexivity|discriminate].
    + rewrite E in F. apply Forall_app in F as [_ F]. inversion F as [|? ? B _]; subst. destruct (attribute_last b B) as (z & c & Eb & C).
      exists (!"<ref" ++ concat (map attribute_text l) ++ z), c. split; auto. rewrite E, map_app, concat_app. cbn [map concat]. rewrite app_nil_r, Eb, <- !app_assoc. auto.
  - exists (!"<ref" ++ concat (map attribute_text (given a)) ++ repeat " "%char k), " "%char. split; [|discriminate].
    change (repeat " "%char (S k)) with (" "%char :: repeat " "%char k). rewrite repeat_cons, <- !app_assoc. auto.
Qed.

(** ** The state of the groups *)

Definition gname (g : option str) : str := match g with Some v => v | None => defaultReferenceGroup end.
Definition gok (g : option str) : Prop := g <> Some defaultReferenceGroup.

Lemma gname_inj : forall g h, gok g -> gok h -> gname g = gname h -> g = h.
Proof. intros [g|] [h|] G H E; cbn in E; auto; [congruence| |]; exfalso; [apply G|apply H]; congruence. Qed.

Lemma value_of_ok : forall a n v, attributes_ok a -> value_of n a = Some v -> v <> [] /\ v <> defaultReferenceGroup.
Proof.
  intros a n v [F _] E. unfold value_of in E. destruct (find _ _) as [b|] eqn:B; [|discriminate]. injection E as <-. apply find_some in B as [B _].
  rewrite Forall_forall in F. apply F in B as (_ & V & _ & _ & D). auto.
Qed.

Lemma group_gok : forall a, attributes_ok a -> gok (value_of !"group" a).
Proof. intros a A E. apply value_of_ok in E as [_ E]; auto. Qed.

Lemma getGroup_value : forall a x post, attributes_ok a -> post_ok post -> ~ In "="%char x -> ~ In dq_char x ->
  getGroupOrDefault (x ++ attributes_text a ++ post) = Ok (gname (value_of !"group" a)).
Proof.
  intros a x post A P N1 N2. unfold getGroupOrDefault. rewrite getAttribute_value; auto; [|right; auto]. destruct (value_of !"group" a) as [v|] eqn:E; [|reflexivity].
  apply value_of_ok in E as [E _]; auto. cbn [bind gname]. apply str_eqb_neq in E. rewrite E. reflexivity.
Qed.

Section Recursive.
Variable tokenizeContent : str -> M str.
Hypothesis rec_runs : forall t s, unique t -> holds false t (tokenizeContent s) (fun _ _ => True).
(** With [strict], the texts of footnotes are texts that are parsed without failure. *)
Variable strict : bool.
Variable bodies : str -> Prop.
Hypothesis body_runs : forall t s, bodies s -> ok false t -> strict = true -> no_crash (tokenizeContent s t).
Definition reference_good (r : reference) : Prop := reference_ok r /\ forall b, ref_body r = Some b -> bodies b.
Definition element_good (e : element) : Prop :=
  match e with
  | Footnote r => reference_good r
  | ShortList a => attributes_ok a
  | LongList a first inner => attributes_ok a /\ inner_ok first /\ Forall (fun p => reference_good (fst p) /\ inner_ok (snd p)) inner
  end.
Lemma element_good_ok : forall e, element_good e -> element_ok e.
Proof.
  intros [r|a|a first inner]; cbn; [intros [H _]; auto|auto|]. intros (A & B & C). repeat split; try apply A; try apply B. eapply Forall_impl; [|exact C]. intros p [[H _] H']. auto.
Qed.
Lemma body_parsed : forall t s, bodies s -> ok false t -> judge strict t (tokenizeContent s) (fun t' => HeadingProofs.parsed tokenizeContent t' s).
Proof. intros t s B O. split; [apply (rec_parsed_any tokenizeContent rec_runs); auto|]. intros E. apply body_runs; auto. Qed.

Notation parsed := (parsed tokenizeContent).

Definition content_parsed (t : Tokenizer) (p q : nat * str) : Prop := fst p = fst q /\ parsed t (snd p) (snd q).
Definition group_tracks (t : Tokenizer) (before : list event) (g : option str) (G : group) : Prop :=
  refNumberCounter G = length (footnotes g before) /\
  (forall n, get_number n (nameToRefNumber G) = if seen n (footnotes g before) then Some (position n (footnotes g before)) else None) /\
  Forall2 (content_parsed t) (pending g before) (refNumberToContent G).
Definition tracks (t : Tokenizer) (before : list event) (gs : groups) : Prop :=
  forall g, gok g -> group_tracks t before g (gs (gname g)).

Lemma tracks_mono : forall t t' b gs, grows t t' -> tracks t b gs -> tracks t' b gs.
Proof.
  intros t t' b gs G T g Hg. destruct (T g Hg) as (H1 & H2 & H3). split; auto. split; auto. eapply Forall2_weaken; [|exact H3]. intros p q [E P].
  split; auto. eapply parsed_mono; [apply grows_keeps|]; eauto.
Qed.

(** An event that is about another group *)
Definition about (g : option str) (e : event) : Prop := match e with Mark g' _ _ => g = g' | Listing g' => g = g' end.
Lemma other_group : forall g b e, ~ about g e -> footnotes g (b ++ [e]) = footnotes g b /\ pending g (b ++ [e]) = pending g b.
Proof.
  intros g b e N. rewrite footnotes_snoc, pending_snoc. destruct e as [g' n [x|]|g']; cbn [about] in N; cbn [add_footnote]; apply opt_eqb_neq in N; rewrite ?N; auto.
Qed.

Lemma tracks_set : forall t b gs e g G, gok g -> about g e -> tracks t b gs -> group_tracks t (b ++ [e]) g G -> tracks t (b ++ [e]) (set_group gs (gname g) G).
Proof.
  intros t b gs e g G Hg A T H h Hh. unfold set_group. destruct (str_eqb (gname h) (gname g)) eqn:E.
  - apply str_eqb_eq in E. apply gname_inj in E; auto. subst. auto.
  - assert (N : ~ about h e). { intros A'. assert (h = g) as -> by (destruct e; cbn in A, A'; congruence). rewrite str_eqb_refl in E. discriminate. }
    destruct (other_group h b e N) as [E1 E2]. unfold group_tracks. rewrite E1, E2. apply T. auto.
Qed.

(** The number of the next mark *)
Definition next_number (G : group) (name : option str) : nat :=
  match name with
  | Some n => match get_number n (nameToRefNumber G) with Some i => i | None => refNumberCounter G end
  | None => refNumberCounter G
  end.

Lemma next_number_eq : forall t b g G name, group_tracks t b g G -> next_number G name = number b g name.
Proof.
  intros t b g G name (C & N & _). destruct name as [n|]; cbn [next_number number]; auto. rewrite N. destruct (seen n _) eqn:S; auto. rewrite position_unseen; auto.
Qed.

Definition next_names (G : group) (name : option str) : list (str * nat) :=
  match name with
  | Some n => match get_number n (nameToRefNumber G) with Some _ => nameToRefNumber G | None => (n, refNumberCounter G) :: nameToRefNumber G end
  | None => nameToRefNumber G
  end.

Lemma tracks_mark : forall t b g G name body contents counter, group_tracks t b g G ->
  counter = (if next_number G name =? refNumberCounter G then S (refNumberCounter G) else refNumberCounter G) ->
  Forall2 (content_parsed t) (pending g (b ++ [Mark g name body])) contents ->
  group_tracks t (b ++ [Mark g name body]) g (mkGroup contents (next_names G name) counter).
Proof.
  intros t b g G name body contents counter T EC F. pose proof (next_number_eq t b g G name T) as NN. destruct T as (C & N & _). unfold group_tracks.
  cbn [refNumberCounter nameToRefNumber refNumberToContent]. rewrite EC, NN, C. clear EC. split; [|split; auto].
  - rewrite footnotes_snoc. cbn [add_footnote]. rewrite opt_eqb_refl. destruct name as [n|]; cbn [number].
    + change (existsb (opt_eqb (Some n)) (footnotes g b)) with (seen n (footnotes g b)). destruct (seen n _) eqn:Sn.
      * pose proof (position_seen _ _ Sn). destruct (Nat.eqb_spec (position n (footnotes g b)) (length (footnotes g b))); [lia|auto].
      * rewrite position_unseen, Nat.eqb_refl, app_length by auto. cbn [length]. lia.
    + rewrite Nat.eqb_refl, app_length. cbn [length]. lia.
  - intros m. rewrite footnotes_snoc. cbn [add_footnote]. rewrite opt_eqb_refl. unfold next_names. destruct name as [n|].
    + change (existsb (opt_eqb (Some n)) (footnotes g b)) with (seen n (footnotes g b)). rewrite N. destruct (seen n (footnotes g b)) eqn:Sn; [apply N|].
      cbn [get_number]. rewrite seen_app. cbn [opt_eqb]. destruct (str_eqb m n) eqn:Emn.
      * apply str_eqb_eq in Emn. subst m. rewrite orb_true_r, C. f_equal. clear -Sn. induction (footnotes g b) as [|x l IH]; cbn [app position length].
        -- rewrite opt_eqb_refl. auto.
        -- unfold seen in Sn. cbn [existsb] in Sn. apply orb_false_iff in Sn as [S1 S2]. rewrite S1. f_equal. auto.
      * rewrite orb_false_r, N. destruct (seen m (footnotes g b)) eqn:Sm; auto. rewrite position_app; auto.
    + rewrite seen_app. cbn [opt_eqb]. rewrite orb_false_r, N. destruct (seen m (footnotes g b)) eqn:Sm; auto. rewrite position_app; auto.
Qed.

Definition out_name (name : option str) : str := match name with Some n => n | None => [] end.

Lemma names_eq : forall G name, name <> Some [] ->
  (if negb (str_eqb (out_name name) []) then
     match get_number (out_name name) (nameToRefNumber G) with Some _ => nameToRefNumber G | None => (out_name name, refNumberCounter G) :: nameToRefNumber G end
   else nameToRefNumber G) = next_names G name /\
  (if negb (str_eqb (out_name name) []) then match get_number (out_name name) (nameToRefNumber G) with Some n => n | None => refNumberCounter G end
   else refNumberCounter G) = next_number G name.
Proof.
  intros G [n|] N; cbn [out_name next_names next_number]; [|split; reflexivity]. assert (str_eqb n [] = false) as -> by (apply str_eqb_neq; congruence). split; reflexivity.
Qed.

(** The key of a mark, which is empty within a list *)
Definition mark_key (t : Tokenizer) (within : option str) (n : nat) (key : str) : Prop :=
  match within with
  | None => (exists i, key = token_key TOKEN_REF_USAGE i) /\ In (key, RefUsageToken n) (tokenMap t)
  | Some _ => key = []
  end.

Lemma usage_type : type_ok TOKEN_REF_USAGE.
Proof. split; [discriminate|]. repeat constructor. Qed.
Lemma def_type : type_ok TOKEN_REF_DEF.
Proof. split; [discriminate|]. repeat constructor. Qed.

Lemma judge_mark_key : forall (within : option str) n t, ok false t ->
  judge strict t (if negb (match within with Some _ => true | None => false end) then
        do! tokenKey := getToken TOKEN_REF_USAGE in
        do! _ := setRawToken tokenKey (RefUsageToken n) in
        ret tokenKey
      else ret []) (fun t' key => mark_key t' within n key).
Proof.
  intros [w|] n t O; cbn [negb mark_key]; [apply judge_ret; auto|].
  apply (judge_token_in _ strict t TOKEN_REF_USAGE (RefUsageToken n) (fun k => ret k)); [auto|apply usage_type|].
  intros t' i O' G I. apply judge_ret; auto. split; eauto.
Qed.

Lemma step_reference : forall pre r post gs within before t, reference_good r -> ok false t -> tracks t before gs ->
  judge strict t (parseReferenceTag tokenizeContent (pre ++ reference_text r ++ post) (length pre) gs within)
    (fun t' p => exists key gs', p = (pre ++ key ++ post, gs', within) /\ tracks t' (before ++ [mark_of r]) gs' /\
       mark_key t' within (number before (value_of !"group" (ref_attributes r)) (value_of !"name" (ref_attributes r))) key).
Proof.
  intros pre [a body] post gs within before t R O T. unfold mark_of. cbn [ref_attributes ref_body]. destruct R as [[A R] Rb]. cbn [ref_attributes ref_body] in A, R, Rb.
  set (post0 := match body with None => !"/" | Some _ => [] end). set (y := match body with None => post | Some b => b ++ !"</ref>" ++ post end).
  assert (P0 : post_ok post0) by (destruct body; [left|right]; auto).
  assert (Ec : pre ++ reference_text (mkReference a body) ++ post = pre ++ !"<ref" ++ (attributes_text a ++ post0) ++ !">" ++ y).
  { unfold reference_text, post0, y. cbn [ref_attributes ref_body]. f_equal. rewrite <- !app_assoc. f_equal. f_equal. destruct body as [b|].
    - rewrite <- !app_assoc. auto.
    - auto. }
  rewrite Ec. clear Ec. assert (Nx : ~ In "<"%char (attributes_text a ++ post0) /\ ~ In ">"%char (attributes_text a ++ post0)).
  { split; intros I; (apply in_app_or in I as [I|I]; [apply attributes_chars in I; auto; tauto|destruct P0 as [P0|P0]; rewrite P0 in I; cbn in I; intuition discriminate]). }
  destruct (tag_parts pre !"<ref" (attributes_text a ++ post0) y eq_refl (proj1 Nx) (proj2 Nx)) as (F & S1 & _ & S2 & S3 & S4 & S5).
  set (content := pre ++ !"<ref" ++ (attributes_text a ++ post0) ++ !">" ++ y) in *.
  set (e := length pre + 4 + length (attributes_text a ++ post0)) in *. unfold parseReferenceTag. rewrite F. cbv zeta. rewrite S1.
  destruct (ref_tag_kind a post0 A P0) as (K1 & K2 & K3). rewrite <- app_assoc, K1, K2, K3. cbn [orb]. rewrite S2.
  eapply judge_lift_ok; [apply (getAttribute_value a [] post0 !"name"); auto; left; auto|].
  eapply judge_lift_ok; [apply (getGroup_value a [] post0); auto|].
  set (g := value_of !"group" a) in *. set (name := value_of !"name" a) in *. change (match name with Some v => v | None => [] end) with (out_name name).
  assert (Gg : gok g) by (apply group_gok; auto). assert (Gn : name <> Some []) by (intros E; apply value_of_ok in E as [E _]; auto).
  pose proof (T g Gg) as Tg. pose proof (next_number_eq t before g _ name Tg) as NN. destruct (names_eq (gs (gname g)) name Gn) as [EN EV].
  eapply (judge_bind _ _ strict t _ _ (fun t' p => exists key G, p = (pre ++ key ++ post, G) /\ group_tracks t' (before ++ [Mark g name body]) g G /\ mark_key t' within (number before g name) key)).
  2:{ intros [c G] t1 O1 G1 (key & G' & E & Hg & Hk). injection E as -> ->. apply judge_ret; auto. exists key. eexists. split; [reflexivity|]. split; auto.
      apply (tracks_set t1 before gs (Mark g name body) g G'); auto; [reflexivity|]. eapply tracks_mono; eauto. }
  destruct body as [b|].
  - assert (Hs : has_prefix !"/" (skipn (pred e) content) = false).
    { destruct (attributes_last a A) as (z & c & Ez & Nc). assert (Es : skipn (pred e) content = c :: !">" ++ y).
      - unfold content, post0. rewrite app_nil_r. replace (pre ++ !"<ref" ++ attributes_text a ++ !">" ++ y) with ((pre ++ z) ++ c :: !">" ++ y).
        + replace (pred e) with (length (pre ++ z)).
          * apply skipn_exact.
          * assert (L : length (!"<ref" ++ attributes_text a) = length (z ++ [c])) by (rewrite Ez; auto).
            rewrite !app_length in L. cbn [length] in L. unfold e, post0. rewrite !app_length. cbn [length]. lia.
        + rewrite <- app_assoc. f_equal. rewrite app_assoc, Ez, <- app_assoc. auto.
      - rewrite Es, has_prefix_single. apply Ascii.eqb_neq. auto. }
    rewrite Hs. destruct R as [R1 R2].
    assert (Fr : FindCorrespondingCloseTokenIgnoreCase content e !"<ref" !"</ref>" = Some (S e + length b)).
    { unfold FindCorrespondingCloseTokenIgnoreCase, findCorrespondingCloseToken. rewrite S5. unfold y.
      change (!">" ++ b ++ !"</ref>" ++ post) with ((">"%char :: b) ++ !"</ref>" ++ post). rewrite find_ref.
      - cbn [length]. f_equal. lia.
      - apply no_tag_gt. auto.
      - apply no_tag_gt. auto. }
    rewrite Fr. unfold parseReferenceDefinition. cbv zeta. rewrite EN, EV.
    assert (Sb : sub content (S e) (S e + length b) = b).
    { unfold sub. rewrite S3. unfold y. replace (S e + length b - S e) with (length b) by lia. apply firstn_exact. }
    assert (Sp : skipn (S e + length b + 6) content = post).
    { replace (S e + length b + 6) with (S e + (length b + 6)) by lia. rewrite <- skipn_skipn_add, S3. unfold y. rewrite <- skipn_skipn_add, skipn_exact. reflexivity. }
    rewrite Sb. eapply judge_bind; [apply body_parsed; auto|]. intros text t1 O1 G1 Pt.
    eapply judge_bind; [apply judge_mark_key; auto|]. intros key t2 O2 G2 Hk. apply judge_ret; auto. rewrite S4, Sp. exists key. eexists. split; [reflexivity|].
    split; [|rewrite <- NN; auto]. apply tracks_mark.
    + assert (T2 : tracks t2 before gs) by (exact (tracks_mono _ _ _ _ (grows_trans _ _ _ G1 G2) T)). apply T2. auto.
    + reflexivity.
    + rewrite pending_snoc, opt_eqb_refl. assert (T2 : tracks t2 before gs) by (exact (tracks_mono _ _ _ _ (grows_trans _ _ _ G1 G2) T)). destruct (T2 g Gg) as (_ & _ & F2).
      constructor; auto. split; [symmetry; exact NN|]. cbn [snd]. eapply parsed_mono; [apply grows_keeps|]; eauto.
  - assert (Hs : has_prefix !"/" (skipn (pred e) content) = true).
    { assert (Es : skipn (pred e) content = !"/" ++ !">" ++ y).
      - unfold content, post0. replace (pre ++ !"<ref" ++ (attributes_text a ++ !"/") ++ !">" ++ y) with ((pre ++ !"<ref" ++ attributes_text a) ++ !"/" ++ !">" ++ y) by (rewrite <- !app_assoc; auto).
        replace (pred e) with (length (pre ++ !"<ref" ++ attributes_text a)); [apply skipn_exact|]. unfold e, post0. rewrite !app_length. cbn [length]. lia.
      - rewrite Es. reflexivity. }
    rewrite Hs. unfold parseNamedReferenceUsage. destruct name as [n|] eqn:En; [|contradiction]. cbn [out_name] in *.
    assert (Nn : str_eqb n [] = false) by (apply str_eqb_neq; intros X; apply Gn; rewrite X; reflexivity). rewrite Nn. cbn [negb].
    set (p := match get_number n (nameToRefNumber (gs (gname g))) with Some i => _ | None => _ end).
    assert (Ep : fst p = next_number (gs (gname g)) (Some n) /\ group_tracks t (before ++ [Mark g (Some n) None]) g (snd p)).
    { assert (Tm : group_tracks t (before ++ [Mark g (Some n) None]) g (mkGroup (refNumberToContent (gs (gname g))) (next_names (gs (gname g)) (Some n))
                 (if next_number (gs (gname g)) (Some n) =? refNumberCounter (gs (gname g)) then S (refNumberCounter (gs (gname g))) else refNumberCounter (gs (gname g))))).
      { apply tracks_mark; auto. rewrite pending_snoc. apply Tg. }
      cbn [next_number next_names] in *. unfold p. destruct (get_number n (nameToRefNumber (gs (gname g)))) as [i|] eqn:Eg; cbn [fst snd].
      - split; auto. destruct (Nat.eqb_spec i (refNumberCounter (gs (gname g)))) as [Ei|_].
        + exfalso. destruct Tg as (C & N & _). rewrite N in Eg. destruct (seen n _) eqn:Sn; [|discriminate]. injection Eg as Eg. apply position_seen in Sn. lia.
        + destruct (gs (gname g)). exact Tm.
      - rewrite Nat.eqb_refl in Tm. split; auto. }
    destruct p as [refNumber G]. cbn [fst snd] in Ep. destruct Ep as [-> Tm]. rewrite NN.
    eapply judge_bind; [apply judge_mark_key; auto|]. intros key t1 O1 G1 Hk. apply judge_ret; auto. rewrite S4, S3. exists key. eexists. split; [reflexivity|].
    split; auto. destruct Tm as (H1 & H2 & H3). split; auto. split; auto. eapply Forall2_weaken; [|exact H3]. intros p q [E P].
    split; auto. eapply parsed_mono; [apply grows_keeps|]; eauto.
Qed.

(** ** Lists of footnotes *)

Definition listed_key (t : Tokenizer) (key : str) (p : nat * str) : Prop :=
  exists content, In (key, RefDefinitionToken (fst p) content) (tokenMap t) /\ parsed t (snd p) content.
Definition def_key (key : str) : Prop := exists i, key = token_key TOKEN_REF_DEF i.

Lemma listed_key_mono : forall t t' k p, grows t t' -> listed_key t k p -> listed_key t' k p.
Proof.
  intros t t' k p G (c & I & P). exists c. split; [eapply keeps_In; [apply grows_keeps|]; eauto|]. eapply parsed_mono; [apply grows_keeps|]; eauto.
Qed.

Lemma get_content_parsed : forall t n pl cl, Forall2 (content_parsed t) pl cl ->
  match get_content n cl with
  | Some c => exists b, get_content n pl = Some b /\ parsed t b c
  | None => get_content n pl = None
  end.
Proof.
  intros t n pl cl F. induction F as [|[i b] [j c] pl cl [E P] F IH]; [reflexivity|]. cbn [fst snd] in E, P. subst j. cbn [get_content]. destruct (n =? i); eauto.
Qed.

Lemma definitions_keys : forall numbers pl cl t, Forall2 (content_parsed t) pl cl -> ok false t ->
  judge strict t (definitions numbers cl) (fun t' r => exists keys, r = concat (map (fun k => k ++ nl) keys) /\ Forall def_key keys /\
    Forall2 (listed_key t') keys (flat_map (pick pl) numbers)).
Proof.
  induction numbers as [|n numbers IH]; intros pl cl t F O; cbn [definitions flat_map].
  - apply judge_ret; auto. exists []. repeat split; constructor.
  - pose proof (get_content_parsed t n pl cl F) as P. unfold pick at 1. destruct (get_content n cl) as [c|].
    + destruct P as (b & -> & P). apply (judge_token_in _ strict t TOKEN_REF_DEF (RefDefinitionToken n c) (fun k => bindM (definitions numbers cl) (fun r => ret (k ++ nl ++ r)))).
      * auto.
      * apply def_type.
      * intros t1 i O1 G1 I. eapply judge_bind; [apply (IH pl cl); auto|].
        -- eapply Forall2_weaken; [|exact F]. intros p q [E P']. split; auto. eapply parsed_mono; [apply grows_keeps|]; eauto.
        -- intros r t2 O2 G2 (keys & -> & K & F2). apply judge_ret; auto. exists (token_key TOKEN_REF_DEF i :: keys). split; [cbn [map concat]; rewrite <- app_assoc; auto|].
           split; [constructor; auto; exists i; auto|]. constructor; auto. exists c. cbn [fst snd]. split; [eapply keeps_In; [apply grows_keeps|]; eauto|].
           eapply parsed_mono; [|exact P]. apply grows_keeps. eapply grows_trans; eauto.
    + rewrite P. apply IH; auto.
Qed.

Lemma key_end : forall k, def_key k -> exists x, k = x ++ ["$"%char].
Proof.
  intros k (i & ->). unfold token_key. change !"$$" with (!"$" ++ !"$"). rewrite !app_assoc. eexists. reflexivity.
Qed.

Lemma filter_small : forall t b g G, group_tracks t b g G -> filter (fun p => refNumberCounter G <=? fst p) (refNumberToContent G) = [].
Proof.
  intros t b g G (C & _ & F). pose proof (pending_lt g b) as L. rewrite C. clear C. induction F as [|p q pl cl [E _] F IH]; auto.
  inversion L; subst. cbn [filter]. rewrite <- E. destruct (Nat.leb_spec (length (footnotes g b)) (fst p)); [lia|]. auto.
Qed.

Lemma step_list : forall pre b x y gs within before t g, length b = 4 -> ~ In "<"%char x -> ~ In ">"%char x ->
  is_placeholder_end (b ++ x ++ !">") || is_placeholder_short (b ++ x ++ !">") = true ->
  gok g -> within = Some (gname g) \/ within = None /\ getGroupOrDefault (b ++ x) = Ok (gname g) -> ok false t -> tracks t before gs ->
  judge strict t (parseReferenceTag tokenizeContent (pre ++ b ++ x ++ !">" ++ y) (length pre) gs within)
    (fun t' p => exists keys texts gs', p = (trim_newlines pre ++ concat (map (app nl) keys) ++ y, gs', None) /\ tracks t' (before ++ [Listing g]) gs' /\
       listed before g texts /\ Forall2 (listed_key t') keys texts /\ Forall def_key keys /\ no_newline_end (trim_newlines pre ++ concat (map (app nl) keys))).
Proof.
  intros pre b x y gs within before t g B N1 N2 K Hg W O T. destruct (tag_parts pre b x y B N1 N2) as (F & S1 & S2 & _ & S3 & S4 & _).
  unfold parseReferenceTag. rewrite F. cbv zeta. rewrite S1, K. eapply (judge_bind _ _ strict t _ _ (fun _ n => n = gname g)).
  { destruct W as [->|[-> W]]; [apply judge_ret; auto|]. rewrite S2. apply judge_lift; auto; [intros a E; congruence|rewrite W; intros _; exact I]. }
  intros n t1 O1 G1 ->. apply (tracks_mono _ _ _ _ G1) in T. pose proof (T g Hg) as Tg. unfold parseReferenceEndPlaceholder. cbv zeta.
  assert (D : judge strict t1 (definitions (seq 0 (refNumberCounter (gs (gname g)))) (refNumberToContent (gs (gname g))))
    (fun t' r => exists keys, r = concat (map (fun k => k ++ nl) keys) /\ Forall def_key keys /\ Forall2 (listed_key t') keys (flat_map (pick (pending g before)) (seq 0 (length (footnotes g before)))))).
  { destruct Tg as (C & _ & F2). rewrite C. apply definitions_keys; auto. }
  eapply (judge_bind _ _ strict t1 _ _ (fun t' p => exists keys texts G, p = (trim_newlines pre ++ concat (map (app nl) keys) ++ y, G) /\ group_tracks t' (before ++ [Listing g]) g G /\
       listed before g texts /\ Forall2 (listed_key t') keys texts /\ Forall def_key keys /\ no_newline_end (trim_newlines pre ++ concat (map (app nl) keys)))).
  - eapply judge_bind; [exact D|]. intros r t2 O2 G2 (keys & -> & Dk & F2). apply judge_ret; auto. rewrite S4, S3.
    destruct (trim_newlines_spec pre) as (n & _ & Ne & _). destruct (trim_keys (trim_newlines pre) keys Ne) as [E Nn].
    { eapply Forall_impl; [|exact Dk]. apply key_end. }
    rewrite <- app_assoc, E, <- app_assoc. exists keys. eexists. eexists. split; [reflexivity|]. split; [|split; [apply pick_listed|auto]].
    destruct Tg as (C & N & F3). unfold group_tracks. cbn [refNumberCounter nameToRefNumber refNumberToContent].
    rewrite (filter_small t1 before g) by (split; auto). rewrite footnotes_snoc, pending_snoc, opt_eqb_refl. cbn [add_footnote]. auto.
  - intros [c G] t2 O2 G2 (keys & texts & G' & E & Hg' & L & F2 & Dk & Nn). injection E as -> ->. apply judge_ret; auto.
    exists keys, texts. eexists. split; [reflexivity|]. split; [|auto]. apply (tracks_set t2 before gs (Listing g) g G'); auto; [reflexivity|]. eapply tracks_mono; eauto.
Qed.

(** ** The loop *)

Definition ready (i : nat) (out : str) : Prop := i <= length out /\ text_ok (skipn i out).

Lemma go_step : forall fuel out R i gs w t Q, ready i out -> at_reference_tag R = true -> tag_next R ->
  (forall fuel', fuel = S fuel' -> judge strict t (do! (content, gs, within) := parseReferenceTag tokenizeContent (out ++ R) (length out) gs w in
     parseReferences_go tokenizeContent fuel' content (S (length out)) gs within) Q) ->
  judge strict t (parseReferences_go tokenizeContent fuel (out ++ R) i gs w) Q.
Proof.
  intros fuel out R i gs w t Q [L T] A N H. assert (E : next_tag (skipn i (out ++ R)) = Some (length out - i)).
  { rewrite skipn_app. replace (i - length out) with 0 by lia. cbn [skipn]. rewrite next_plain, (next_hit R A); auto. cbn [option_map]. rewrite skipn_length. f_equal. lia. }
  destruct fuel as [|fuel]; cbn [parseReferences_go]; rewrite E; [apply judge_fuel|].
  replace (i + (length out - i)) with (length out) by lia. apply H. auto.
Qed.

Lemma reference_begin : forall r y, at_reference_tag (reference_text r ++ y) = true /\ tag_next (reference_text r ++ y).
Proof.
  intros r y. split; [|right; eexists; reflexivity]. unfold at_reference_tag. apply andb_true_iff. split; [|reflexivity]. apply Nat.ltb_lt.
  unfold reference_text. rewrite !app_length. cbn [length]. destruct (ref_body r); rewrite ?app_length; cbn [length]; lia.
Qed.

Lemma skipn_S_app : forall (a b : str), skipn (S (length a)) (a ++ b) = tl b.
Proof. intros a b. rewrite skipn_app, skipn_all2 by lia. replace (S (length a) - length a) with 1 by lia. destruct b; reflexivity. Qed.

Lemma tl_no_lt : forall s : str, ~ In "<"%char s -> ~ In "<"%char (tl s).
Proof. intros [|c s] N; auto. intros I. apply N. right. auto. Qed.

Lemma ready_inner : forall out f, inner_ok f -> ready (S (length out)) (out ++ f).
Proof.
  intros out f [Ne N]. split.
  - rewrite app_length. destruct f; [contradiction|]. cbn [length]. lia.
  - rewrite skipn_S_app. apply text_ok_plain. apply tl_no_lt. auto.
Qed.

(** The footnotes within a list *)
Lemma go_inner : forall Q y g inner fuel out i gs before t, Forall (fun p => reference_good (fst p) /\ inner_ok (snd p)) inner ->
  ready i out -> ok false t -> tracks t before gs ->
  (forall fuel' gs' i' t', ready i' (out ++ concat (map snd inner)) -> ok false t' -> grows t t' -> tracks t' (before ++ map (fun p => mark_of (fst p)) inner) gs' ->
     judge strict t' (parseReferences_go tokenizeContent fuel' ((out ++ concat (map snd inner)) ++ y) i' gs' (Some g)) Q) ->
  judge strict t (parseReferences_go tokenizeContent fuel (out ++ concat (map (fun p => reference_text (fst p) ++ snd p) inner) ++ y) i gs (Some g)) Q.
Proof.
  intros Q y g inner. induction inner as [|[r f] inner IH]; intros fuel out i gs before t F Rd O T H; cbn [map concat fst snd] in *.
  - specialize (H fuel gs i t). rewrite !app_nil_r in H. apply H; auto. apply grows_refl.
  - inversion F as [|? ? [R I] F']; subst. cbn [fst snd] in R, I. rewrite <- !app_assoc.
    destruct (reference_begin r (f ++ concat (map (fun p => reference_text (fst p) ++ snd p) inner) ++ y)) as [B1 B2].
    apply go_step; auto. intros fuel' ->. eapply judge_bind; [apply (step_reference out r _ gs (Some g) before t); auto|].
    intros [[c gs'] w] t1 O1 G1 (key & gs1 & E & T1 & K). injection E as -> -> ->. cbn [mark_key] in K. subst key. cbn [app].
    rewrite app_assoc. apply (IH fuel' (out ++ f) _ _ (before ++ [mark_of r])); auto.
    + apply ready_inner; auto.
    + intros fuel2 gs2 i2 t2 R2 O2 G2 T2. specialize (H fuel2 gs2 i2 t2). rewrite !app_assoc in H. rewrite <- !app_assoc in T2. cbn [app] in T2. apply H; auto.
      eapply grows_trans; eauto.
Qed.

Lemma go_none : forall fuel out i gs w t, text_ok (skipn i out) -> ok false t -> judge strict t (parseReferences_go tokenizeContent fuel out i gs w) (fun t' r => t' = t /\ r = out).
Proof.
  intros fuel out i gs w t T O. destruct fuel as [|fuel]; cbn [parseReferences_go]; rewrite next_none by auto; apply judge_ret; auto.
Qed.

Definition token_in (t : Tokenizer) (key : str) (token : Token) : Prop := In (key, token) (tokenMap t).

Lemma usage_key_lt : forall i, ~ In "<"%char (token_key TOKEN_REF_USAGE i).
Proof. intros i I. pose proof (atom_chars _ (token_key_atom _ i usage_type)) as A. rewrite Forall_forall in A. specialize (A _ I). discriminate. Qed.
Lemma def_key_lt : forall k, def_key k -> ~ In "<"%char k.
Proof. intros k (i & ->) I. pose proof (atom_chars _ (token_key_atom _ i def_type)) as A. rewrite Forall_forall in A. specialize (A _ I). discriminate. Qed.

Lemma keys_lt : forall keys, Forall def_key keys -> ~ In "<"%char (concat (map (app nl) keys)).
Proof.
  intros keys F I. apply in_concat in I as (x & J & I). apply in_map_iff in J as (k & <- & J). rewrite Forall_forall in F. apply in_app_or in I as [I|I].
  - revert I. no_lt.
  - revert I. apply def_key_lt. auto.
Qed.

Lemma usage_key_newline : forall out i, no_newline_end (out ++ token_key TOKEN_REF_USAGE i).
Proof.
  intros out i (x & E). unfold token_key in E. change !"$$" with (!"$" ++ !"$") in E. rewrite !app_assoc in E. apply app_inj_tail in E as [_ E]. discriminate.
Qed.

(** The state behind a list of footnotes *)
Lemma ready_list : forall o n X after, ~ In "<"%char X -> text_ok after -> n < length after -> ready (S (length (o ++ repeat nl_char n))) (o ++ X ++ after).
Proof.
  intros o n X after N T L. split.
  - rewrite !app_length, repeat_length. lia.
  - rewrite app_length, repeat_length, skipn_app, skipn_all2 by lia. cbn [app]. apply text_ok_skipn. apply text_ok_app; auto.
Qed.
Lemma ready_list_last : forall o n X after, ~ In "<"%char X -> text_ok after -> text_ok (skipn (S (length (o ++ repeat nl_char n))) (o ++ X ++ after)).
Proof.
  intros o n X after N T. rewrite app_length, repeat_length, skipn_app, skipn_all2 by lia. cbn [app]. apply text_ok_skipn. apply text_ok_app; auto.
Qed.

Definition element_begins : forall e y, element_ok e -> at_reference_tag (element_text e ++ y) = true /\ tag_next (element_text e ++ y).
Proof.
  intros [r|a|a first inner] y E; [apply reference_begin| |].
  - split; [|right; eexists; reflexivity]. reflexivity.
  - split; [|right; eexists; reflexivity]. reflexivity.
Qed.

Lemma spaced_tail : forall before e after rest, spaced before ((e, after) :: rest) -> spaced after rest /\ (rest <> [] -> is_list e -> trailing_newlines before + inner_length e < length after).
Proof. intros before e after rest S. inversion S; subst; split; auto; try constructor; intros; contradiction. Qed.

Definition texts_of (l : list (element * str)) : str := concat (map (fun p => element_text (fst p) ++ snd p) l).

Lemma go_elements : forall elements fuel out i gs before last_text t,
  Forall (fun p => element_good (fst p) /\ text_ok (snd p)) elements -> spaced last_text elements ->
  text_ok (skipn i out) -> (elements <> [] -> i <= length out) -> trailing_newlines out = trailing_newlines last_text ->
  ok false t -> tracks t before gs ->
  judge strict t (parseReferences_go tokenizeContent fuel (out ++ texts_of elements) i gs None)
    (fun t' r => written (token_in t') (parsed t') before out elements r).
Proof.
  induction elements as [|[e after] rest IH]; intros fuel out i gs before last_text t F Sp Tx Li Tr O T.
  { cbn. rewrite app_nil_r. eapply judge_weaken; [apply go_none; auto|]. intros r t' _ _ [-> ->]. constructor. }
  inversion F as [|? ? [Eo Ta] F']; subst. cbn [fst snd] in Eo, Ta. apply spaced_tail in Sp as [Sp Sl].
  change (texts_of ((e, after) :: rest)) with ((element_text e ++ after) ++ texts_of rest). rewrite <- app_assoc.
  assert (Rd : ready i out) by (split; auto; apply Li; discriminate).
  destruct (element_begins e (after ++ texts_of rest) (element_good_ok _ Eo)) as [B1 B2].
  (* the rest behind a list *)
  assert (LIST : forall a keys texts out0 fuel' gs' t1 b', (e = ShortList a \/ exists first inner, e = LongList a first inner) ->
    out0 = out ++ hidden_text e -> b' = before ++ hidden_marks e ->
    listed b' (value_of !"group" a) texts -> Forall2 (listed_key t1) keys texts -> Forall def_key keys -> no_newline_end (trim_newlines out0 ++ concat (map (app nl) keys)) ->
    ok false t1 -> tracks t1 (b' ++ [Listing (value_of !"group" a)]) gs' ->
    judge strict t1 (parseReferences_go tokenizeContent fuel' (trim_newlines out0 ++ concat (map (app nl) keys) ++ after ++ texts_of rest) (S (length out0)) gs' None)
      (fun t' r => written (token_in t') (parsed t') before out ((e, after) :: rest) r)).
  { intros a keys texts out0 fuel' gs' t1 b' Ea E0 Eb L F2 Dk Nn O1 T1. destruct (trim_newlines_spec out0) as (n & En & Ne & Nt).
    assert (IL : is_list e) by (destruct Ea as [->|(? & ? & ->)]; exact I).
    assert (Hn : n <= trailing_newlines last_text + inner_length e).
    { rewrite <- Nt, E0, <- Tr. eapply Nat.le_trans; [apply trailing_le|]. apply Nat.add_le_mono_l. destruct e; cbn [hidden_text inner_length]; rewrite ?app_length; auto. }
    assert (Ec : trim_newlines out0 ++ concat (map (app nl) keys) ++ after ++ texts_of rest = (trim_newlines out0 ++ concat (map (app nl) keys) ++ after) ++ texts_of rest)
      by (rewrite <- !app_assoc; auto).
    rewrite Ec. eapply judge_weaken.
    - apply (IH fuel' (trim_newlines out0 ++ concat (map (app nl) keys) ++ after) (S (length out0)) gs' (b' ++ [Listing (value_of !"group" a)]) after); auto.
      + rewrite En at 1. apply ready_list_last; auto. apply keys_lt. auto.
      + intros Nr. specialize (Sl Nr IL). rewrite En at 1. apply ready_list; auto; [apply keys_lt; auto|lia].
      + rewrite app_assoc. apply trailing_app. auto.
    - intros r t2 O2 G2 W. eapply (written_list _ _ before out a e _ texts keys (trim_newlines out0) n); eauto.
      + subst b'. auto.
      + eapply Forall2_weaken; [|exact F2]. intros k p Hk. apply (listed_key_mono _ _ _ _ G2) in Hk. exact Hk.
      + rewrite <- E0. auto.
      + subst b'. rewrite <- app_assoc in W. exact W. }
  apply go_step; auto. intros fuel' ->. destruct e as [r|a|a first inner]; cbn [element_text element_good] in *.
  - eapply judge_bind; [apply (step_reference out r _ gs None before t); auto|].
    intros [[c gs'] w] t1 O1 G1 (key & gs1 & E & T1 & Kx & K). injection E as -> -> ->. destruct Kx as (k & ->).
    match goal with |- judge _ _ (parseReferences_go _ _ ?c _ _ _) _ => replace c with ((out ++ token_key TOKEN_REF_USAGE k ++ after) ++ texts_of rest) by (rewrite <- !app_assoc; auto) end.
    eapply judge_weaken.
    + apply (IH fuel' (out ++ token_key TOKEN_REF_USAGE k ++ after) (S (length out)) gs1 (before ++ [mark_of r]) after); auto.
      * rewrite skipn_S_app. destruct (token_key TOKEN_REF_USAGE k) as [|x key] eqn:Ek; [discriminate Ek|]. cbn [app tl]. apply text_ok_app; auto.
        pose proof (usage_key_lt k) as N. rewrite Ek in N. intros I. apply N. right. auto.
      * intros _. rewrite !app_length. change (length (token_key TOKEN_REF_USAGE k)) with (S (length (tl (token_key TOKEN_REF_USAGE k)))). lia.
      * rewrite app_assoc. apply trailing_app. apply usage_key_newline.
    + intros s t2 O2 G2 W. eapply written_mark; [reflexivity| |exact W]. eapply keeps_In; [apply grows_keeps|]; eauto.
  - assert (Nx : ~ In "<"%char (!"erences" ++ attributes_text a ++ !"/") /\ ~ In ">"%char (!"erences" ++ attributes_text a ++ !"/")).
    { split; intros I; rewrite !in_app_iff in I; (destruct I as [I|[I|I]]; [revert I; no_lt|apply attributes_chars in I; auto; tauto|revert I; no_lt]). }
    destruct Nx as [Nx1 Nx2].
    assert (Ec : (!"<references" ++ attributes_text a ++ !"/>") ++ after ++ texts_of rest = !"<ref" ++ (!"erences" ++ attributes_text a ++ !"/") ++ !">" ++ after ++ texts_of rest).
    { rewrite <- !app_assoc. reflexivity. }
    rewrite Ec. eapply judge_bind.
    + apply (step_list out !"<ref" _ (after ++ texts_of rest) gs None before t (value_of !"group" a)); auto.
      * apply orb_true_iff. right.
        match goal with |- is_placeholder_short ?z = true => replace z with (!"<references" ++ attributes_text a ++ !"/>") end; [apply short_tag_kind; auto|].
        rewrite <- !app_assoc. reflexivity.
      * apply group_gok. auto.
      * right. split; auto. replace (!"<ref" ++ !"erences" ++ attributes_text a ++ !"/") with (!"<references" ++ attributes_text a ++ !"/") by reflexivity.
        apply getGroup_value; auto; [right; auto|no_lt|no_lt].
    + intros [[c gs'] w] t1 O1 G1 (keys & texts & gs1 & E & T1 & L & F2 & Dk & Nn). injection E as -> -> ->.
      apply (LIST a keys texts out fuel' gs1 t1 before); auto; cbn [hidden_text hidden_marks]; rewrite ?app_nil_r; auto.
  - destruct Eo as (Ea & If & Fi).
    assert (Nx : ~ In "<"%char (!"erences" ++ attributes_text a) /\ ~ In ">"%char (!"erences" ++ attributes_text a)).
    { split; intros I; rewrite !in_app_iff in I; (destruct I as [I|I]; [revert I; no_lt|apply attributes_chars in I; auto; tauto]). }
    destruct Nx as [Nx1 Nx2]. set (tail := !"</references>" ++ after ++ texts_of rest).
    assert (Ec : (!"<references" ++ attributes_text a ++ !">" ++ first ++ concat (map (fun p => reference_text (fst p) ++ snd p) inner) ++ !"</references>") ++ after ++ texts_of rest =
                 !"<ref" ++ (!"erences" ++ attributes_text a) ++ !">" ++ first ++ concat (map (fun p => reference_text (fst p) ++ snd p) inner) ++ tail).
    { unfold tail. rewrite <- !app_assoc. reflexivity. }
    rewrite Ec. set (y := first ++ concat (map (fun p => reference_text (fst p) ++ snd p) inner) ++ tail).
    destruct (tag_parts out !"<ref" _ y eq_refl Nx1 Nx2) as (Fd & S1 & S2 & _ & S3 & S4 & _).
    eapply (judge_bind _ _ strict t _ _ (fun t' p => t' = t /\ p = (out ++ y, gs, Some (gname (value_of !"group" a))))).
    { unfold parseReferenceTag. rewrite Fd. cbv zeta. rewrite S1. destruct (start_tag_kind a Ea) as (K1 & K2 & K3).
      replace (!"<ref" ++ (!"erences" ++ attributes_text a) ++ !">") with (!"<references" ++ attributes_text a ++ !">") by (rewrite <- app_assoc; reflexivity).
      rewrite K1, K2, K3. cbn [orb]. rewrite S2. eapply judge_lift_ok.
      - replace (!"<ref" ++ !"erences" ++ attributes_text a) with (!"<references" ++ attributes_text a ++ []) by (rewrite app_nil_r; reflexivity).
        apply getGroup_value; auto; [left; auto|no_lt|no_lt].
      - apply judge_ret; auto. rewrite S3, S4. auto. }
    intros [[c gs'] w] t1 O1 G1 [-> E]. injection E as -> -> ->. unfold y. rewrite app_assoc.
    eapply (go_inner _ tail (gname (value_of !"group" a)) inner fuel' (out ++ first) _ gs before t); auto.
    + apply ready_inner. auto.
    + intros fuel2 gs2 i2 t2 R2 O2 G2 T2. rewrite <- app_assoc in R2.
      match goal with |- judge _ _ (parseReferences_go _ _ ?c _ _ _) _ =>
        replace c with ((out ++ first ++ concat (map snd inner)) ++ (!"</re" ++ !"ferences" ++ !">" ++ after ++ texts_of rest)) by (unfold tail; rewrite <- !app_assoc; reflexivity) end.
      apply go_step; [exact R2|reflexivity|right; eexists; reflexivity|]. intros fuel3 ->. eapply judge_bind.
      * apply (step_list (out ++ first ++ concat (map snd inner)) !"</re" !"ferences" (after ++ texts_of rest) gs2 _ (before ++ map (fun p => mark_of (fst p)) inner) t2 (value_of !"group" a)); auto.
        -- no_lt.
        -- no_lt.
        -- apply group_gok. auto.
      * intros [[c gs'] w] t3 O3 G3 (keys & texts & gs3 & E & T3 & L & F2 & Dk & Nn). injection E as -> -> ->.
        apply (LIST a keys texts (out ++ first ++ concat (map snd inner)) fuel3 gs3 t3 (before ++ map (fun p => mark_of (fst p)) inner)); auto. right. eauto.
Qed.

Theorem references_judged : forall first elements t, text_ok first -> Forall (fun p => element_good (fst p) /\ text_ok (snd p)) elements -> spaced first elements -> ok false t ->
  judge strict t (parseReferences tokenizeContent (document_text first elements)) (fun t' r => written (token_in t') (parsed t') [] first elements r).
Proof.
  intros first elements t T1 F S O. unfold parseReferences, document_text. change (concat _) with (texts_of elements).
  apply (go_elements elements _ first 0 _ [] first); auto.
  - intros _. lia.
  - intros g _. split; [reflexivity|]. split; [reflexivity|constructor].
Qed.
End Recursive.

Theorem references_written : forall tokenizeContent, (forall t s, unique t -> holds false t (tokenizeContent s) (fun _ _ => True)) -> forall first elements t, document_ok first elements -> ok false t ->
  holds false t (parseReferences tokenizeContent (document_text first elements)) (fun t' r => written (token_in t') (HeadingProofs.parsed tokenizeContent t') [] first elements r).
Proof.
  intros rec R first elements t (T1 & F & S) O. apply (judge_holds _ false). apply (references_judged rec R false (fun _ => True)); auto; [discriminate|].
  eapply Forall_impl; [|exact F]. intros [e x] [E X]. cbn [fst snd] in *. split; auto. destruct e as [r|a|a f inner]; cbn in *; [split; auto|auto|].
  destruct E as (A & B & C). split; auto. split; auto. eapply Forall_impl; [|exact C]. intros p [H H']. split; auto. split; auto.
Qed.
