(** * A text at rest has no markup *)

From Coq Require Import Ascii String.
From Coq Require Import List Arith NArith ZArith Bool Lia.
From Verif Require Import GoStr GoStrFacts TextFacts TrimFacts UtilModel ConfigModel BracketModel BracketProofs PassSpec ReferenceSpec MarkupSpec LinkProofs RefAttrProofs RefTagProofs RefNumberProofs ReferenceProofs SafeTextProofs EndTextProofs EndProofs SettledProofs.
From Verif Require Import TokenModel FormattingModel ParagraphModel HeadingModel LinkModel ImageModel ListModel TableModel ReferenceModel TokenizerModel.
Import ListNotations.
Local Open Scope list_scope.

Lemma line_split : forall line s, line_of line s -> In line (split nl s).
Proof.
  intros line s (N & a & b & -> & A & B). change nl with [nl_char].
  assert (L : forall b, (b = [] \/ exists b', b = nl ++ b') -> In line (split [nl_char] (line ++ b))).
  { clear b B. intros b [->|(b' & ->)]; [rewrite app_nil_r, split_single_none by auto; left; auto|]. change (line ++ nl ++ b') with (line ++ nl_char :: b'). rewrite split_single_app by auto. left. auto. }
  destruct A as [->|(a' & ->)]; [apply L; auto|]. rewrite <- app_assoc. change (nl ++ line ++ b) with (nl_char :: line ++ b).
  assert (K : forall n x, length x <= n -> In line (split [nl_char] (x ++ nl_char :: line ++ b))).
  { induction n as [|n IH]; intros x Lx; (destruct (in_dec Ascii.ascii_dec nl_char x) as [I|I];
      [apply ShapeProofs.in_split_first in I as (x1 & x2 & -> & N1)|rewrite split_single_app by auto; right; apply L; auto]).
    - rewrite app_length in Lx. cbn [length] in Lx. lia.
    - rewrite <- app_assoc. cbn [List.app]. rewrite split_single_app by auto. right. apply IH. rewrite app_length in Lx. cbn [length] in Lx. lia. }
  apply (K (length a')). auto.
Qed.

(** White space at the end does not reach the characters before it. *)
Lemma trim_keeps : forall l m y, blank l -> solid_ends m -> exists y', trim_space (l ++ m ++ y) = m ++ y' /\ exists r, y = y' ++ r.
Proof.
  intros l m y L S. unfold trim_space. rewrite trim_left_blank by auto.
  assert (E : trim_left (m ++ y) = m ++ y).
  { destruct S as (c & C & (x & E) & _). apply trim_left_fix. intros p I. rewrite E. apply solid_first; auto. }
  rewrite E. destruct (trim_right_spec (m ++ y)) as (r & R & B & _). set (q := trim_right (m ++ y)) in *. clearbody q.
  destruct S as (_ & _ & _ & d & x & D & ->). rewrite <- app_assoc in R. cbn [List.app] in R.
  apply app_app_cases in R as [(z & R1 & R2)|(z & R1 & R2)].
  - destruct z as [|e z].
    + exfalso. cbn [List.app] in R2. subst r. apply (blank_no d (d :: y)); auto. left. auto.
    + cbn [List.app] in R2. injection R2 as <- R2. exists z. split; [rewrite R1, <- app_assoc; reflexivity|]. exists r. exact R2.
  - exfalso. subst r. apply (blank_no d (z ++ d :: y)); auto. apply in_or_app. right. left. auto.
Qed.

Lemma solid_chars : forall c, In c !"=*#;:{|<>" -> solid c = true.
Proof. intros c I. cbn in I. repeat (destruct I as [<-|I]; [vm_compute; reflexivity|]). destruct I. Qed.

Lemma solid_ends_two : forall c d x, solid c = true -> solid d = true -> solid_ends (c :: x ++ [d]).
Proof. intros c d x C D. exists c. split; auto. split; [eauto|]. exists d, (c :: x). auto. Qed.

Lemma lower_lower : forall s, to_lower (to_lower s) = to_lower s.
Proof. intros s. induction s as [|c s IH]; auto. cbn [to_lower map] in *. rewrite lower_lower_idem. unfold to_lower in IH. rewrite IH. auto. Qed.

Lemma prefix_ignore_case : forall tag t s, spelled tag t -> HasPrefixIgnoreCase (t ++ s) tag = true.
Proof.
  intros tag t s <-. unfold HasPrefixIgnoreCase. rewrite lower_lower. unfold to_lower. rewrite map_app. apply has_prefix_app.
Qed.

Lemma equals_ignore_case : forall tag t, spelled tag t -> EqualsIgnoreCase t tag = true.
Proof. intros tag t <-. unfold EqualsIgnoreCase. rewrite lower_lower. apply str_eqb_refl. Qed.

Lemma spelled_length : forall tag t, spelled tag t -> length t = length tag.
Proof. intros tag t <-. unfold to_lower. rewrite map_length. auto. Qed.

Lemma spelled_tag : forall tag t, spelled ("<"%char :: tag) t -> exists t', t = "<"%char :: t'.
Proof.
  intros tag [|c t] E; [discriminate|]. exists t. f_equal. injection E as E _. apply (lower_symbol c "<"%char); [left; left; auto|exact E].
Qed.

Lemma tag_end_found : forall x y, ~ In nl_char x -> exists i, tag_end (x ++ ">"%char :: y) = Some i.
Proof.
  induction x as [|c x IH]; intros y N; [exists 0; reflexivity|]. cbn [List.app tag_end]. destruct (Ascii.eqb c ">"); [exists 0; auto|].
  destruct (Ascii.eqb c nl_char) eqn:E; [apply Ascii.eqb_eq in E; exfalso; apply N; left; auto|]. destruct (IH y) as (i & ->); [intros I; apply N; right; auto|]. exists (S i). auto.
Qed.

Lemma start_tag_found : forall tag t x y, spelled tag t -> ~ In nl_char x -> exists r, remove_start_tag tag (t ++ x ++ ">"%char :: y) = Some r.
Proof.
  intros tag t x y T N. unfold remove_start_tag. rewrite prefix_ignore_case by auto. rewrite <- (spelled_length _ _ T), skipn_app, skipn_all, Nat.sub_diag. cbn [skipn List.app].
  destruct (tag_end_found x y N) as (i & ->). cbn [option_map]. eauto.
Qed.

Lemma no_char_app : forall (c : ascii) a b, ~ In c (a ++ b) -> ~ In c a /\ ~ In c b.
Proof. intros c a b H. split; intros I; apply H, in_or_app; auto. Qed.

(** Links *)
Lemma prefix_end_found : forall p s, ~ In "]"%char p -> exists i, prefix_end (p ++ ":"%char :: s) = Some i.
Proof.
  induction p as [|c p IH]; intros s N; [exists 0; reflexivity|]. cbn [List.app prefix_end]. destruct (Ascii.eqb c ":"); [exists 0; auto|].
  destruct (Ascii.eqb c "]") eqn:E; [apply Ascii.eqb_eq in E; exfalso; apply N; left; auto|]. destruct (IH s) as (i & ->); [intros I; apply N; right; auto|]. exists (S i). auto.
Qed.

Lemma link_start_found : forall a s, link_start_match s <> None -> s <> [] -> find_link_start (a ++ s) <> None.
Proof.
  induction a as [|c a IH]; intros s M N; cbn [List.app].
  - destruct s as [|c s]; [congruence|]. cbn [find_link_start]. destruct (link_start_match (c :: s)); [discriminate|congruence].
  - cbn [find_link_start]. destruct (link_start_match (c :: a ++ s)); [discriminate|]. specialize (IH s M N). destruct (find_link_start (a ++ s)); [discriminate|congruence].
Qed.

Lemma no_brackets : forall cfg s, word_prefixes cfg -> at_rest cfg s -> forall a b, s <> a ++ !"[[" ++ b.
Proof.
  intros cfg s W R a b E. assert (C : contains !"[[" s = true) by (apply contains_spec; eauto). clear a b E.
  pose proof (rest_internal _ _ R) as F. pose proof (rest_image _ _ R) as Im.
  destruct (split_parts !"[[" s) as [(_ & X)|(a & b & E & X)]; [discriminate|apply contains_false_index in X; congruence|].
  rewrite X in F. cbn [tl] in F. destruct (split_first_items !"[[" b) as (item & items & E1 & E2); [discriminate|]. rewrite E1 in F. apply Forall_inv in F.
  destruct F as [F|[(_ & F)|(F & _)]]; try discriminate.
  unfold is_file in F. apply andb_true_iff in F as [Fc F]. destruct (split2_parts !":" item) as [Y|(p & q & Ei & Y)].
  { unfold split2 in Y. destruct (index !":" item) as [i|] eqn:J; [discriminate|]. apply contains_false_index in J. congruence. }
  rewrite Y in F. apply mem_str_In in F. destruct (W _ F) as [W1 W2]. destruct p as [|c p]; [destruct W1; reflexivity|].
  assert (N : ~ In "]"%char (c :: p)) by (intros I; apply W2; apply (in_map lower_char) in I; exact I).
  revert Im. rewrite E. apply link_start_found; [|discriminate]. unfold link_start_match. rewrite has_prefix_app. cbn [List.app skipn]. rewrite E2, Ei. rewrite <- !app_assoc. cbn [List.app].
  destruct (Ascii.eqb c "]") eqn:Q; [apply Ascii.eqb_eq in Q; exfalso; apply N; left; auto|].
  destruct (prefix_end_found p (q ++ marked !"[[" items)) as (i & ->); [intros I; apply N; right; auto|]. discriminate.
Qed.

(** External links *)
Lemma visible_solid : forall c, 32 < nat_of_ascii c < 127 -> solid c = true.
Proof.
  intros c H. destruct c as [[] [] [] [] [] [] [] []]; try (vm_compute; reflexivity); exfalso; revert H;
    match goal with |- _ < ?n < _ -> False => let m := eval vm_compute in n in change (32 < m < 127 -> False); lia end.
Qed.

Lemma split_item : forall a b, ~ In "["%char b -> forall rest, (rest = [] \/ exists r, rest = "["%char :: r) -> In b (tl (split !"[" (a ++ "["%char :: b ++ rest))).
Proof.
  intros a b N rest Rs. change !"[" with ["["%char].
  assert (L : In b (split ["["%char] (b ++ rest))).
  { destruct Rs as [->|(r & ->)]; [rewrite app_nil_r, split_single_none by auto; left; auto|]. rewrite split_single_app by auto. left. auto. }
  assert (K : forall n x, length x <= n -> In b (tl (split ["["%char] (x ++ "["%char :: b ++ rest)))).
  { induction n as [|n IH]; intros x Lx; (destruct (in_dec Ascii.ascii_dec "["%char x) as [I|I];
      [apply ShapeProofs.in_split_first in I as (x1 & x2 & -> & N1)|rewrite split_single_app by auto; exact L]).
    - rewrite app_length in Lx. cbn [length] in Lx. lia.
    - rewrite <- app_assoc. cbn [List.app]. rewrite split_single_app by auto. cbn [tl]. assert (T : forall l, In b (tl l) -> In b l) by (intros [|y l] Y; [destruct Y|right; exact Y]).
      apply T. apply IH. rewrite app_length in Lx. cbn [length] in Lx. lia. }
  apply (K (length a)). auto.
Qed.

Lemma cut_at : forall (c : ascii) s, exists x rest, s = x ++ rest /\ ~ In c x /\ (rest = [] \/ exists r, rest = c :: r).
Proof.
  intros c s. destruct (in_dec Ascii.ascii_dec c s) as [I|I].
  - apply ShapeProofs.in_split_first in I as (x & r & -> & N). exists x, (c :: r). eauto.
  - exists s, []. rewrite app_nil_r. auto.
Qed.

Lemma no_external : forall cfg s, at_rest cfg s -> forall a scheme address text b,
  (forall c, In c (scheme ++ address) -> 32 < nat_of_ascii c < 127 /\ ~ In c !"[]") -> no_char ":" scheme ->
  ~ In (to_lower scheme) (lists cfg FilePrefixes) -> (forall c, In c text -> ~ In c !"[]") ->
  s <> a ++ !"[" ++ scheme ++ !"://" ++ address ++ !" " ++ text ++ !"]" ++ b.
Proof.
  intros cfg s R a scheme address text b U N P T E. pose proof (rest_external _ _ R) as F. destruct (cut_at "["%char b) as (b1 & b2 & -> & B1 & B2).
  set (url := scheme ++ !"://" ++ address) in *.
  assert (Uc : forall c, In c url -> solid c = true /\ c <> "["%char /\ c <> "]"%char /\ c <> " "%char).
  { intros c I. unfold url in I. apply in_app_or in I as [I|I].
    2: apply in_app_or in I as [I|I]; [cbn in I; repeat (destruct I as [<-|I]; [split; [vm_compute; reflexivity|repeat split; discriminate]|]); destruct I|].
    all: destruct (U c) as [V B]; [apply in_or_app; auto|]; split; [apply visible_solid; exact V|]; cbn in B; repeat split; intros ->; try tauto; vm_compute in V; lia. }
  set (item := url ++ " "%char :: text ++ "]"%char :: b1).
  assert (Es : s = a ++ "["%char :: item ++ b2). { rewrite E. unfold item, url. rewrite <- !app_assoc. cbn [List.app]. rewrite <- !app_assoc. reflexivity. }
  assert (I : In item (tl (split !"[" s))).
  { rewrite Es. apply split_item; auto. unfold item. intros I. apply in_app_or in I as [I|[I|I]]; [apply Uc in I; tauto|discriminate|].
    apply in_app_or in I as [I|[I|I]]; [apply T in I; apply I; cbn; auto|discriminate|auto]. }
  rewrite Forall_forall in F. specialize (F _ I). clear I Es E.
  assert (Nt : ~ In "]"%char (url ++ " "%char :: text)).
  { intros I. apply in_app_or in I as [I|[I|I]]; [apply Uc in I; tauto|discriminate|]. apply T in I. apply I. cbn. auto. }
  assert (H : hd [] (split !"]" item) = url ++ " "%char :: text).
  { unfold item. change (url ++ " "%char :: text ++ "]"%char :: b1) with (url ++ (" "%char :: text) ++ "]"%char :: b1). rewrite app_assoc. change !"]" with ["]"%char].
    rewrite split_single_app by exact Nt. reflexivity. }
  assert (Ns : ~ In " "%char url) by (intros I; apply Uc in I; tauto).
  destruct F as [F|[(F & _)|(_ & F)]].
  - unfold is_file in F. apply andb_true_iff in F as [_ F]. unfold item, url in F. rewrite <- !app_assoc in F. change !":" with [":"%char] in F.
    change (!"://" ++ ?x) with (":"%char :: !"//" ++ x) in F. rewrite split2_first in F by exact N. apply mem_str_In in F. auto.
  - rewrite H in F. change !" " with [" "%char] in F. rewrite split_single_app in F by auto. destruct (split_first_items [" "%char] text) as (u & v & X & _); [discriminate|]. rewrite X in F. discriminate.
  - rewrite H in F. cbv zeta in F. destruct F as [_ F]. unfold link_target in F. change !" " with [" "%char] in F. rewrite split_single_app in F by auto. cbn [hd] in F.
    rewrite trim_solid in F.
    + assert (C : contains !"://" url = true) by (apply contains_spec; exists scheme, address; reflexivity). congruence.
    + assert (Ne : url <> []) by (unfold url; destruct scheme; discriminate). destruct (exists_last Ne) as (z & d & Z). destruct url as [|c u] eqn:Eu; [congruence|].
      exists c. split; [apply Uc; left; auto|]. split; [eauto|]. exists d, z. split; [apply Uc; rewrite Z; apply in_or_app; right; left; auto|exact Z].
Qed.

(** Formulas *)
Lemma math_nowhere : forall s, math_matches s 0 = [] -> forall a b, s = a ++ b -> b <> [] -> math_match b = None.
Proof.
  induction s as [|c s IH]; intros M a b E N; [destruct a, b; try discriminate; congruence|]. cbn [math_matches] in M. destruct (math_match (c :: s)) as [[m g]|] eqn:X; [discriminate|].
  destruct a as [|d a]; [cbn [List.app] in E; subst b; exact X|]. injection E as -> E. exact (IH M a b E N).
Qed.

Lemma no_math : forall cfg s, at_rest cfg s -> forall a x y b, no_char nl_char x -> s <> a ++ !"<math" ++ x ++ !">" ++ y ++ !"</math>" ++ b.
Proof.
  intros cfg s R a x y b N E. pose proof (math_nowhere s (rest_math _ _ R) _ _ E) as M. specialize (M ltac:(discriminate)). unfold math_match in M.
  rewrite has_prefix_app in M. change (skipn 5 (!"<math" ++ ?z)) with z in M. change (!">" ++ ?z) with (">"%char :: z) in M.
  destruct (tag_end_found x (y ++ !"</math>" ++ b) N) as (i & I). rewrite I in M.
  assert (K : exists z, skipn (5 + i + 1) (!"<math" ++ x ++ ">"%char :: y ++ !"</math>" ++ b) = z ++ !"</math>" ++ b).
  { assert (Li : i <= length x).
    { clear - I. revert i I. induction x as [|c x IH]; intros i I; cbn [List.app tag_end] in I; [injection I as <-; auto|]. destruct (Ascii.eqb c ">"); [injection I as <-; cbn; lia|].
      destruct (Ascii.eqb c nl_char); [discriminate|]. destruct (tag_end _) as [j|]; [|discriminate]. injection I as <-. cbn [length]. specialize (IH j eq_refl). lia. }
    replace (5 + i + 1) with (length !"<math" + (i + 1)) by (cbn; lia). rewrite skipn_app, skipn_all2 by lia. replace (length !"<math" + (i + 1) - length !"<math") with (i + 1) by lia. cbn [List.app].
    exists (skipn (i + 1) (x ++ [">"%char]) ++ y). change (x ++ ">"%char :: y ++ ?z) with (x ++ [">"%char] ++ y ++ z). rewrite (app_assoc x), skipn_app, app_length. cbn [length].
    replace (i + 1 - (length x + 1)) with 0 by lia. cbn [skipn]. rewrite <- app_assoc. reflexivity. }
  destruct K as (z & K). change (5 + i + 1) with (S (S (S (S (S (i + 1)))))) in K. cbn [Nat.add] in M. rewrite K in M.
  destruct (index !"</math>" (z ++ !"</math>" ++ b)) as [j|] eqn:J; [discriminate|]. apply contains_false_index in J.
  assert (C : contains !"</math>" (z ++ !"</math>" ++ b) = true) by (apply contains_spec; eauto). congruence.
Qed.

(** Tags *)
Lemma firstn_exact : forall (a b : str), firstn (length a) (a ++ b) = a.
Proof. intros. rewrite firstn_app, firstn_all, Nat.sub_diag. cbn. apply app_nil_r. Qed.

Lemma no_nowiki : forall cfg s, at_rest cfg s -> forall a t c d b, spelled !"<nowiki>" t -> s <> a ++ t ++ c :: d :: b.
Proof.
  intros cfg s R a t c d b T E. pose proof (rest_nowiki _ _ R _ _ E) as N. unfold at_nowiki in N. pose proof (spelled_length _ _ T) as L.
  change (length nowikiStart) with (length !"<nowiki>") in N. rewrite <- L, firstn_exact, equals_ignore_case in N by exact T. rewrite andb_true_r in N. apply Nat.ltb_ge in N.
  rewrite app_length, L in N. cbn in N. lia.
Qed.

Lemma reference_place : forall t c x, spelled !"<ref" t \/ spelled !"</re" t -> at_reference_tag (t ++ c :: x) = true.
Proof.
  intros t c x T. assert (L : length t = 4) by (destruct T as [T|T]; rewrite (spelled_length _ _ T); reflexivity). unfold at_reference_tag.
  rewrite <- L at 2 3. rewrite firstn_exact. apply andb_true_iff. split; [apply Nat.ltb_lt; rewrite app_length, L; cbn; lia|].
  destruct T as [T|T]; rewrite (equals_ignore_case _ _ T); [reflexivity|apply orb_true_r].
Qed.

Lemma no_open_reference : forall cfg s, at_rest cfg s -> forall a t c x, spelled !"<ref" t \/ spelled !"</re" t -> no_char ">" (c :: x) -> s <> a ++ t ++ c :: x.
Proof.
  intros cfg s R a t c x T N E. assert (L : length t = 4) by (destruct T as [T|T]; rewrite (spelled_length _ _ T); reflexivity).
  destruct (rest_reference _ _ R _ _ E (reference_place t c x T)) as (e & F & _). rewrite findClose_ignore_case in F. apply findClose_position in F as (F1 & _ & u & v & F2 & F3); try discriminate.
  apply N. assert (I : In ">"%char (skipn 4 (t ++ c :: x))).
  { assert (X : nth_error (to_lower (t ++ c :: x)) e = Some ">"%char).
    { rewrite F2, nth_error_app2, F3, Nat.sub_diag by lia. reflexivity. }
    unfold to_lower in X. rewrite nth_error_map in X. destruct (nth_error (t ++ c :: x) e) as [d|] eqn:Y; [|discriminate]. injection X as X.
    assert (D : d = ">"%char) by (clear - X; destruct d as [[] [] [] [] [] [] [] []]; vm_compute in X; congruence). subst d.
    rewrite <- (firstn_skipn 4 (t ++ c :: x)) in Y. rewrite nth_error_app2 in Y; [apply nth_error_In in Y; exact Y|]. rewrite firstn_length. lia. }
  rewrite <- L, skipn_app, skipn_all, Nat.sub_diag in I. exact I.
Qed.

Lemma no_long_reference : forall cfg s, at_rest cfg s -> forall a t x y, spelled !"<ref" t \/ spelled !"</re" t -> no_char "<" x -> no_char ">" x -> ~ (exists z, x = z ++ !"/") ->
  s <> a ++ t ++ x ++ !">" ++ y.
Proof.
  intros cfg s R a t x y T N1 N2 N3 E. assert (L : length t = 4) by (destruct T as [T|T]; rewrite (spelled_length _ _ T); reflexivity).
  assert (P : at_reference_tag (t ++ x ++ !">" ++ y) = true) by (destruct x as [|c x]; apply (reference_place t); exact T).
  destruct (rest_reference _ _ R _ _ E P) as (e & F & Sl & _). destruct (tag_parts [] t x y L N1 N2) as (F' & _). cbn [length List.app Nat.add] in F'.
  cbn [List.app] in F. rewrite F' in F. assert (Ee : e = S (S (S (S (length x))))) by congruence. subst e. cbn [pred] in Sl.
  destruct (snoc_cases _ x) as [->|(z & d & ->)].
  - destruct t as [|t1 [|t2 [|t3 [|t4 [|]]]]]; try discriminate L. cbn [length List.app skipn] in Sl.
    change (Ascii.eqb "/" t4 && true = true) in Sl. rewrite andb_true_r in Sl. apply Ascii.eqb_eq in Sl. subst t4. destruct T as [T|T]; discriminate T.
  - apply N3. exists z. f_equal. rewrite app_length in Sl. cbn [length] in Sl. replace (S (S (S (length z + 1)))) with (length t + length z) in Sl by lia.
    rewrite app_assoc in Sl. rewrite <- app_assoc in Sl. 
    assert (X : skipn (length t + length z) (t ++ (z ++ [d]) ++ !">" ++ y) = d :: !">" ++ y).
    { rewrite <- skipn_skipn_add, skipn_app, skipn_all, Nat.sub_diag. cbn [skipn List.app]. rewrite <- app_assoc, skipn_app, skipn_all, Nat.sub_diag. reflexivity. }
    rewrite X in Sl. change (Ascii.eqb "/" d && true = true) in Sl. rewrite andb_true_r in Sl. apply Ascii.eqb_eq in Sl. subst d. reflexivity.
Qed.

Lemma no_named_reference : forall cfg s, at_rest cfg s -> forall a r b, reference_ok r -> ref_body r = None -> s <> a ++ reference_text r ++ b.
Proof.
  intros cfg s R a [at_ body] b [A K] Eb E. cbn [ref_attributes ref_body] in *. subst body.
  assert (Et : reference_text (mkReference at_ None) ++ b = !"<ref" ++ (attributes_text at_ ++ !"/") ++ !">" ++ b).
  { unfold reference_text. cbn [ref_attributes ref_body]. rewrite <- !app_assoc. reflexivity. }
  rewrite Et in E. assert (Nx : ~ In "<"%char (attributes_text at_ ++ !"/") /\ ~ In ">"%char (attributes_text at_ ++ !"/")).
  { split; intros I; (apply in_app_or in I as [I|I]; [apply attributes_chars in I; auto; tauto|cbn in I; intuition discriminate]). }
  assert (P : at_reference_tag (!"<ref" ++ (attributes_text at_ ++ !"/") ++ !">" ++ b) = true).
  { destruct (attributes_text at_ ++ !"/") as [|c x]; apply (reference_place !"<ref"); left; reflexivity. }
  destruct (rest_reference _ _ R _ _ E P) as (e & F & _ & G). destruct (tag_parts [] !"<ref" (attributes_text at_ ++ !"/") b eq_refl (proj1 Nx) (proj2 Nx)) as (F' & _ & _ & S2 & _).
  cbn [length Nat.add] in F', S2. change ([] ++ ?z) with z in F', S2. rewrite F' in F.
  assert (Ee : e = S (S (S (S (length (attributes_text at_ ++ !"/")))))) by congruence. subst e. rewrite S2 in G.
  unfold getNameAttribute in G. pose proof (getAttribute_value at_ [] !"/" !"name") as V. cbn [List.app] in V. change ([] ++ ?z) with z in V.
  rewrite V in G; [|exact A|right; reflexivity|left; reflexivity|auto|auto]. destruct (value_of !"name" at_) as [v|] eqn:Ev; [|congruence].
  apply value_of_ok in Ev as [Ev _]; auto. congruence.
Qed.

Theorem rest_no_markup : forall cfg s, word_prefixes cfg -> at_rest cfg s -> ~ markup cfg s.
Proof.
  intros cfg s W R M.
  assert (Ln : forall line (P : str -> Prop), Forall P (split nl s) -> line_of line s -> P line).
  { intros line P F L. apply line_split in L. rewrite Forall_forall in F. auto. }
  destruct M as [s l x r L B1 B2|s l r L B1 B2|s l c x L B C|s l x L B|s l t x y L B T|s l t x L B T|s t x y L T|s t L T|a b|a scheme address text b U N P T|a x y b N|a t c d b T|a t x y T N1 N2 N3|a t c x T N|a r b K Eb|s N L].
  - specialize (Ln _ _ (rest_heading _ _ R) L 1 ltac:(lia)). unfold no_heading in Ln.
    assert (E : l ++ !"=" ++ x ++ !"=" ++ r = l ++ ("="%char :: x ++ ["="%char]) ++ r) by (cbn [List.app]; rewrite <- app_assoc; reflexivity). rewrite E in Ln.
    rewrite trim_core in Ln; auto; [|apply solid_ends_two; reflexivity]. change ("="%char :: x ++ ["="%char]) with (("="%char :: x) ++ ["="%char]) in Ln at 2.
    change (repeat_str !"=" 1) with ["="%char] in Ln. rewrite has_suffix_app in Ln. discriminate.
  - specialize (Ln _ _ (rest_heading _ _ R) L 1 ltac:(lia)). unfold no_heading in Ln. rewrite trim_core in Ln; auto; [discriminate|apply solid_ends_single; reflexivity].
  - specialize (Ln _ _ (rest_list _ _ R) L). unfold no_list in Ln. assert (S : solid c = true) by (apply solid_chars; cbn in *; tauto).
    destruct (trim_keeps l [c] x B (solid_ends_single c S)) as (y & E & _). change (l ++ c :: x) with (l ++ [c] ++ x) in Ln. rewrite E in Ln. cbn [List.app] in Ln.
    unfold isListStartingCharacter in Ln. cbn in C. repeat (destruct C as [<-|C]; [discriminate|]). destruct C.
  - specialize (Ln _ _ (rest_table _ _ R) L). unfold no_table in Ln. destruct (trim_keeps l !"{|" x B) as (y & E & _); [apply (solid_ends_two "{" "|" []); reflexivity|].
    rewrite E in Ln. discriminate.
  - specialize (Ln _ _ (rest_gallery _ _ R) L) as [_ G]. destruct L as (Nl & _). apply no_char_app in Nl as [_ Nl]. apply no_char_app in Nl as [_ Nl]. apply no_char_app in Nl as [Nl _].
    destruct (spelled_tag _ _ T) as (t' & ->). destruct (trim_keeps l ("<"%char :: (t' ++ x) ++ [">"%char]) y B) as (y' & E & _); [apply solid_ends_two; reflexivity|].
    assert (X : l ++ ("<"%char :: t') ++ x ++ !">" ++ y = l ++ ("<"%char :: (t' ++ x) ++ [">"%char]) ++ y) by (cbn [List.app]; rewrite <- !app_assoc; reflexivity).
    rewrite X, E in G. assert (Y : ("<"%char :: (t' ++ x) ++ [">"%char]) ++ y' = ("<"%char :: t') ++ x ++ ">"%char :: y') by (cbn [List.app]; rewrite <- !app_assoc; reflexivity).
    rewrite Y in G. destruct (start_tag_found _ _ x y' T Nl) as (z & Z). congruence.
  - specialize (Ln _ _ (rest_gallery _ _ R) L) as [G _]. destruct (trim_keeps l t x B) as (y & E & _).
    + destruct (spelled_tag _ _ T) as (t' & E). destruct (snoc_cases _ t) as [->|(z & d & Ed)]; [discriminate|]. exists "<"%char. split; [reflexivity|]. split; [eauto|]. exists d, z. split; [|exact Ed].
      assert (D : lower_char d = ">"%char).
      { unfold spelled in T. rewrite Ed in T. unfold to_lower in T. rewrite map_app in T. apply (f_equal (fun s => last s zero)) in T. cbn [map] in T. rewrite last_last in T. exact T. }
      clear - D. destruct d as [[] [] [] [] [] [] [] []]; vm_compute in D; try discriminate D; reflexivity.
    + rewrite E, (prefix_ignore_case _ _ _ T) in G. discriminate.
  - specialize (Ln _ _ (rest_imagemap _ _ R) L) as [_ G]. destruct L as (Nl & _). apply no_char_app in Nl as [_ Nl]. apply no_char_app in Nl as [Nl _].
    destruct (start_tag_found _ _ x y T Nl) as (z & Z). change (!">" ++ y) with (">"%char :: y) in G. congruence.
  - specialize (Ln _ _ (rest_imagemap _ _ R) L) as [G _]. rewrite (equals_ignore_case _ _ T) in G. discriminate.
  - exact (no_brackets _ _ W R _ _ eq_refl).
  - exact (no_external _ _ R _ _ _ _ _ U N P T eq_refl).
  - exact (no_math _ _ R _ _ _ _ N eq_refl).
  - exact (no_nowiki _ _ R _ _ _ _ _ T eq_refl).
  - exact (no_long_reference _ _ R _ _ _ _ T N1 N2 N3 eq_refl).
  - exact (no_open_reference _ _ R _ _ _ _ T N eq_refl).
  - exact (no_named_reference _ _ R _ _ _ K Eb eq_refl).
  - destruct (rest_paragraph _ _ R) as [Z|Z]; [congruence|]. apply Z. apply line_split. exact L.
Qed.
