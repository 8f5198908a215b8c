(** * Proofs about file names, paths and collections *)

From Coq Require Import Ascii String.
From Coq Require Import List Arith NArith ZArith Bool Lia Permutation.
From Verif Require Import GoStr GoStrFacts UtilModel UtilSpec.
Import ListNotations.
Local Open Scope list_scope.

Arguments SanitizeFilename : simpl never.
Arguments part_is_sanitized : simpl never.

(** ** SanitizeFilename is a per-character encoding *)

Definition enc (c : ascii) : str :=
  if Ascii.eqb c "%" then !"%25" else
  if Ascii.eqb c "<" then !"%3C" else
  if Ascii.eqb c ">" then !"%3E" else
  if Ascii.eqb c ":" then !"%3A" else
  if Ascii.eqb c "034" then !"%22" else
  if Ascii.eqb c "/" then !"%2F" else
  if Ascii.eqb c "\" then !"%5C" else
  if Ascii.eqb c "|" then !"%7C" else
  if Ascii.eqb c "?" then !"%3F" else
  if Ascii.eqb c "*" then !"%2A" else [c].

Lemma flat_map_flat_map : forall {A B C} (f : B -> list C) (g : A -> list B) l,
  flat_map f (flat_map g l) = flat_map (fun x => flat_map f (g x)) l.
Proof. intros; induction l; simpl; auto. rewrite flat_map_app, IHl; auto. Qed.

Lemma sanitize_enc : forall n, SanitizeFilename n = flat_map enc n.
Proof.
  intros n. unfold SanitizeFilename, dq.

 rewrite !replace_all_single, !flat_map_flat_map.
  apply flat_map_ext. intros c.
  destruct c as [[] [] [] [] [] [] [] []]; reflexivity.
Qed.

Definition dec_code (a b : ascii) : ascii :=
  if str_eqb [a; b] !"25" then "%" else
  if str_eqb [a; b] !"3C" then "<" else
  if str_eqb [a; b] !"3E" then ">" else
  if str_eqb [a; b] !"3A" then ":" else
  if str_eqb [a; b] !"22" then "034" else
  if str_eqb [a; b] !"2F" then "/" else
  if str_eqb [a; b] !"5C" then "\" else
  if str_eqb [a; b] !"7C" then "|" else
  if str_eqb [a; b] !"3F" then "?" else "*".

Fixpoint dec (s : str) : str :=
  match s with
  | "%"%char :: a :: b :: r => dec_code a b :: dec r
  | c :: r => c :: dec r
  | [] => []
  end.

Lemma dec_enc1 : forall c t, dec (enc c ++ t) = c :: dec t.
Proof. intros c t; destruct c as [[] [] [] [] [] [] [] []]; reflexivity. Qed.

Lemma dec_enc : forall n, dec (flat_map enc n) = n.
Proof. induction n; simpl flat_map; [reflexivity|]. rewrite dec_enc1, IHn; auto. Qed.

Lemma SanitizeFilename_inj : forall a b, SanitizeFilename a = SanitizeFilename b -> a = b.
Proof. intros a b H; rewrite !sanitize_enc in H. rewrite <- (dec_enc a), H; apply dec_enc. Qed.

Lemma enc_cases : forall c, In (enc c) escape_codes \/ (enc c = [c] /\ ~ In c reserved /\ c <> "%"%char).
Proof.
  intros c.
  destruct c as [[] [] [] [] [] [] [] []];
    solve [ left; vm_compute; tauto
          | right; split; [reflexivity|split; [intros K; vm_compute in K; intuition discriminate|discriminate]]].
Qed.

Lemma SanitizeFilename_escaped : forall n, escaped (SanitizeFilename n).
Proof.
  intros n; rewrite sanitize_enc; induction n as [|c n IH]; simpl; [constructor|].
  destruct (enc_cases c) as [H|(-> & H & K)]; simpl; constructor; auto.
Qed.

Lemma escaped_chars : forall s c, escaped s -> In c reserved -> ~ In c s.
Proof.
  intros s c H R; induction H; intros K; simpl in *; auto.
  - destruct K as [->|K]; auto.
  - apply in_app_or in K as [K|K]; auto.
    assert (forallb (fun code => forallb (fun c => negb (existsb (Ascii.eqb c) code)) reserved) escape_codes = true) as E
      by (vm_compute; reflexivity).
    rewrite forallb_forall in E. specialize (E _ H). rewrite forallb_forall in E. specialize (E _ R).
    apply negb_true_iff in E. assert (existsb (Ascii.eqb c) code = true); [|congruence].
    apply existsb_exists; exists c; split; auto; apply Ascii.eqb_refl.
Qed.

Lemma SanitizeFilename_reserved : forall n c, In c reserved -> ~ In c (SanitizeFilename n).
Proof. intros; apply escaped_chars; auto; apply SanitizeFilename_escaped. Qed.

(** ** IsSanitized *)

(** Deleting one escape code from a text over some of the codes *)
Inductive esc_over (codes : list str) : str -> Prop :=
| eo_nil : esc_over codes []
| eo_char : forall c s, ~ In c reserved -> c <> "%"%char -> esc_over codes s -> esc_over codes (c :: s)
| eo_code : forall code s, In code codes -> esc_over codes s -> esc_over codes (code ++ s).

Lemma escaped_esc_over : forall s, escaped s -> esc_over escape_codes s.
Proof. intros s H; induction H; econstructor; eauto. Qed.

Definition good_codes (codes : list str) : Prop :=
  forall code, In code codes -> exists a b, code = ["%"%char; a; b] /\ a <> "%"%char /\ b <> "%"%char.

Lemma delete_code : forall codes code s,
  good_codes (code :: codes) -> ~ In code codes ->
  esc_over (code :: codes) s -> esc_over codes (replace_all code [] s).
Proof.
  intros codes code s G N H; induction H as [|c s H1 H2 H IH|k s Hk H IH].
  - constructor.
  - destruct (G code (or_introl eq_refl)) as (a & b & -> & _).
    rewrite replace_all_cons. { constructor; auto. }
    apply has_prefix_neq; congruence.
  - destruct (str_eq_dec k code) as [->|D].
    + rewrite replace_all_hit; auto. destruct (G code (or_introl eq_refl)) as (a & b & -> & _); discriminate.
    + destruct Hk as [E|Hk]; [congruence|].
      destruct (G code (or_introl eq_refl)) as (a & b & -> & Na & Nb).
      destruct (G k (or_intror Hk)) as (a' & b' & -> & Na' & Nb').
      simpl app. rewrite replace_all_cons.
      2:{ rewrite !has_prefix_cons. destruct (Ascii.eqb a a') eqn:E1; [|apply andb_false_r].
          destruct (Ascii.eqb b b') eqn:E2; [|apply andb_false_r]. apply Ascii.eqb_eq in E1, E2; subst; contradiction. }
      rewrite replace_all_cons.
      2:{ apply has_prefix_neq; congruence. }
      rewrite replace_all_cons.
      2:{ apply has_prefix_neq; congruence. }
      change (esc_over codes (["%"%char; a'; b'] ++ replace_all ["%"%char; a; b] [] s)).
      apply eo_code; auto.
Qed.

Lemma esc_over_nil_chars : forall s, esc_over [] s -> forall c, In c reserved \/ c = "%"%char -> ~ In c s.
Proof.
  intros s H c R; induction H as [|d s H1 H2 H IH|k s Hk H IH]; auto.
  intros [->|K]; auto. destruct R; auto.
Qed.

Lemma good_escape_codes : good_codes escape_codes.
Proof.
  intros code H. repeat (destruct H as [<-|H]; [do 2 eexists; split; [reflexivity|split; discriminate]|]). contradiction.
Qed.

Lemma good_tail : forall c l, good_codes (c :: l) -> good_codes l.
Proof. intros c l H k K; apply H; right; auto. Qed.

Lemma part_sanitized_escaped : forall s, escaped s -> part_is_sanitized s = true.
Proof.
  intros s H. apply escaped_esc_over in H. unfold part_is_sanitized.
  pose proof good_escape_codes as G. unfold escape_codes in *.
  assert (ND : NoDup escape_codes).
  { unfold escape_codes. repeat constructor; simpl; intuition discriminate. }
  unfold escape_codes in ND.
  do 10 (apply delete_code in H; [|assumption|inversion ND; assumption];
         apply good_tail in G; inversion ND; subst; clear ND;
         match goal with K : NoDup _ |- _ => rename K into ND end;
         repeat match goal with K : ~ In _ _ |- _ => clear K end).
  pose proof (esc_over_nil_chars _ H) as K.
  match goal with |- negb ?b = true => assert (b = false); [|rewrite H0; reflexivity] end.
  repeat rewrite orb_false_iff.
  unfold dq.
  repeat split; apply contains_single_false; apply K; vm_compute; tauto.
Qed.

Lemma escaped_split : forall s, escaped s -> split !"/" s = [s].
Proof. intros s H; apply split_single_none. apply escaped_chars; auto. vm_compute; tauto. Qed.

Lemma IsSanitized_Sanitize : forall n, IsSanitized (SanitizeFilename n) = true.
Proof.
  intros n; unfold IsSanitized. rewrite escaped_split by apply SanitizeFilename_escaped.
  cbn [forallb]. rewrite part_sanitized_escaped by apply SanitizeFilename_escaped. auto.
Qed.

Lemma replace_all_keeps : forall old new s c, old <> [] -> ~ In c old -> In c s -> In c (replace_all old new s).
Proof.
  intros old new s c N H. pattern s; apply (split_ind_len old); auto.
  - intros t E K; rewrite replace_all_none; auto.
  - intros a b E IH K. rewrite replace_all_first; auto.
    apply in_app_or in K as [K|K]; [apply in_or_app; auto|].
    apply in_app_or in K as [K|K]; [contradiction|].
    apply in_or_app; right; apply in_or_app; right; auto.
Qed.

Lemma In_split_piece : forall c s x, In x s -> x <> c -> exists p, In p (split [c] s) /\ In x p.
Proof.
  intros c s x; induction s as [|y s IH]; intros H N; simpl in H; try contradiction.
  destruct (Ascii.eqb c y) eqn:E.
  - apply Ascii.eqb_eq in E; subst. rewrite split_single_cons.
    destruct H as [->|H]; [contradiction|]. destruct (IH H N) as (p & A & B). exists p; split; auto; right; auto.
  - rewrite split_cons by (rewrite has_prefix_single; auto).
    destruct (split [c] s) as [|h t] eqn:K; [exfalso; eapply split_nonempty; eauto|].
    destruct H as [->|H].
    + exists (x :: h); split; [left; auto|left; auto].
    + destruct (IH H N) as (p & [->|A] & B).
      * exists (y :: p); split; [left; auto|right; auto].
      * exists p; split; [right; auto|auto].
Qed.

Definition strip_codes (part : str) : str := fold_left (fun s code => replace_all code [] s) escape_codes part.

Lemma part_is_sanitized_eq : forall part,
  part_is_sanitized part = negb (existsb (fun c => contains [c] (strip_codes part)) ("%"%char :: reserved)).
Proof. intros part. unfold part_is_sanitized, strip_codes, escape_codes, reserved, dq. cbn [fold_left existsb].
  rewrite orb_false_r, <- !orb_assoc. reflexivity. Qed.

Lemma strip_codes_keeps : forall part c, In c reserved -> In c part -> In c (strip_codes part).
Proof.
  intros part c R. unfold strip_codes.
  assert (G : forall codes, (forall code, In code codes -> In code escape_codes) ->
    forall p, In c p -> In c (fold_left (fun s code => replace_all code [] s) codes p)).
  { induction codes as [|code codes IH]; intros Hs p Hp; simpl; auto.
    apply IH; [intros; apply Hs; right; auto|].
    assert (Hc : In code escape_codes) by (apply Hs; left; auto).
    apply replace_all_keeps; auto.
    - intros ->. clear - Hc. repeat (destruct Hc as [Hc|Hc]; [discriminate|]); contradiction.
    - apply escaped_chars; auto. rewrite <- (app_nil_r code). constructor; auto; constructor. }
  apply G; auto.
Qed.

Lemma IsSanitized_chars : forall p c, IsSanitized p = true -> In c reserved -> c <> "/"%char -> ~ In c p.
Proof.
  intros p c H R N K. unfold IsSanitized in H.
  destruct (In_split_piece "/"%char p c K N) as (part & Hp & Hc).
  rewrite forallb_forall in H. specialize (H _ Hp). rewrite part_is_sanitized_eq in H.
  apply negb_true_iff in H.
  assert (E : existsb (fun c => contains [c] (strip_codes part)) ("%"%char :: reserved) = true); [|congruence].
  apply existsb_exists. exists c; split; [right; auto|].
  apply contains_single. apply strip_codes_keeps; auto.
Qed.

(** ** Collections *)

Lemma EqualsInAnyOrder_perm : forall a b, NoDup a -> (EqualsInAnyOrder a b = true <-> Permutation a b).
Proof.
  intros a b N; unfold EqualsInAnyOrder; rewrite andb_true_iff, Nat.eqb_eq, forallb_forall; split.
  - intros [L H]. apply NoDup_Permutation_bis; auto; [lia|].
    intros x Hx. specialize (H _ Hx). apply andb_true_iff in H as [_ H]. apply mem_str_In; auto.
  - intros P; split; [apply Permutation_length; auto|].
    intros x Hx; apply andb_true_iff; split; apply mem_str_In; auto. eapply Permutation_in; eauto.
Qed.

Lemma RemoveDuplicates_loop_In : forall l h x,
  In x (RemoveDuplicates_loop h l) <-> In x l /\ ~ In x h.
Proof.
  induction l as [|a l IH]; intros h x; simpl; [tauto|].
  destruct (mem_str a h) eqn:E.
  - apply mem_str_In in E. rewrite IH. split; [tauto|].
    intros [[->|H] K]; [contradiction|tauto].
  - apply mem_str_not_In in E. simpl. rewrite IH. simpl.
    destruct (str_eq_dec a x) as [->|D]; tauto.
Qed.

Lemma RemoveDuplicates_loop_NoDup : forall l h, NoDup (RemoveDuplicates_loop h l).
Proof.
  induction l as [|a l IH]; intros h; simpl; [constructor|].
  destruct (mem_str a h); auto. constructor; auto.
  rewrite RemoveDuplicates_loop_In. simpl; tauto.
Qed.

Lemma RemoveDuplicates_loop_snoc : forall l h x,
  RemoveDuplicates_loop h (l ++ [x]) =
  RemoveDuplicates_loop h l ++ (if mem_str x (h ++ l) then [] else [x]).
Proof.
  induction l as [|a l IH]; intros h x; simpl.
  - rewrite app_nil_r; destruct (mem_str x h); auto.
  - destruct (mem_str a h) eqn:E.
    + rewrite IH. f_equal.
      replace (mem_str x (h ++ a :: l)) with (mem_str x (h ++ l)); auto.
      apply mem_str_In in E. apply eq_true_iff_eq. rewrite !mem_str_In, !in_app_iff; simpl.
      intuition subst; auto.
    + simpl. rewrite IH. f_equal. f_equal.
      replace (mem_str x (h ++ a :: l)) with (mem_str x ((a :: h) ++ l)); auto.
      apply eq_true_iff_eq. rewrite !mem_str_In; simpl; rewrite !in_app_iff; simpl. tauto.
Qed.

(** ** Paths *)

Lemma fold_clean_entry : forall rooted acc c, entry_name c -> clean_step rooted acc c = c :: acc.
Proof.
  intros rooted acc c (A & B & C & _). unfold clean_step.
  apply str_eqb_neq in A, B, C. rewrite A, B, C; auto.
Qed.

Lemma join_snoc : forall sep l a, l <> [] -> join sep (l ++ [a]) = join sep l ++ sep ++ a.
Proof.
  intros sep l a; induction l as [|x l IH]; intros N; [contradiction|].
  destruct l as [|y l].
  - auto.
  - change ((x :: y :: l) ++ [a]) with (x :: y :: l ++ [a]). rewrite (join_cons sep x (y :: l ++ [a])) by discriminate.
    rewrite (join_cons sep x (y :: l)) by discriminate.
    change (y :: l ++ [a]) with ((y :: l) ++ [a]). rewrite IH by discriminate. rewrite <- !app_assoc; auto.
Qed.

Lemma render_path_cons : forall rooted c acc, acc <> [] ->
  render_path rooted (c :: acc) = render_path rooted acc ++ "/"%char :: c.
Proof.
  intros rooted c acc N. unfold render_path. destruct acc as [|a acc]; [contradiction|].
  change (rev (c :: a :: acc)) with (rev (a :: acc) ++ [c]).
  rewrite join_snoc. 2:{ simpl. intros E; apply app_eq_nil in E as [_ E]; discriminate. }
  rewrite <- app_assoc. auto.
Qed.

(** Components of the path the cleaning starts from *)
Definition base_comps (d : str) : list str := match d with [] => [] | _ => split !"/" d end.
Definition base_acc (d : str) : list str := fold_left (clean_step (has_prefix !"/" d)) (base_comps d) [].

Lemma split_slash_entry : forall c, entry_name c -> split !"/" c = [c].
Proof. intros c (_ & _ & _ & H). apply split_single_none; auto. Qed.

Lemma entry_not_rooted : forall c t, entry_name c -> has_prefix !"/" (c ++ t) = false.
Proof.
  intros c t (A & _ & _ & H). destruct c as [|x c]; [contradiction|]. apply has_prefix_neq.
  intros <-; apply H; left; auto.
Qed.

Lemma path_join_entries : forall d l, l <> [] -> Forall entry_name l ->
  path_join (d :: l) = render_path (has_prefix !"/" d) (rev l ++ base_acc d).
Proof.
  intros d l N F.
  assert (S : forall l, l <> [] -> Forall entry_name l -> split !"/" (join !"/" l) = l).
  { clear. intros l N F. apply split_join_single; auto. eapply Forall_impl; [|exact F]. intros a (_ & _ & _ & H); auto. }
  assert (K : forall l acc r, Forall entry_name l -> fold_left (clean_step r) l acc = rev l ++ acc).
  { clear. induction l as [|a l IH]; intros acc r F; simpl; auto. inversion F; subst.
    rewrite fold_clean_entry by auto. rewrite IH by auto. rewrite <- app_assoc; auto. }
  destruct d as [|x d].
  - simpl path_join. destruct l as [|c l]; [contradiction|]. inversion F; subst.
    destruct c as [|y c]; [destruct H1 as (Z & _); contradiction|].
    change (path_join ((y :: c) :: l)) with (path_clean (join !"/" ((y :: c) :: l))).
    unfold path_clean. rewrite S by auto. rewrite K by auto.
    assert (R : has_prefix !"/" (join !"/" ((y :: c) :: l)) = false).
    { destruct l as [|b l]. simpl join. rewrite <- (app_nil_r (y :: c)). apply entry_not_rooted; auto.
      rewrite join_cons by discriminate. apply entry_not_rooted; auto. }
    rewrite R. unfold base_acc; simpl; auto.
  - change (path_join ((x :: d) :: l)) with (path_clean (join !"/" ((x :: d) :: l))).
    rewrite join_cons by auto. unfold path_clean.
    assert (R : has_prefix !"/" ((x :: d) ++ !"/" ++ join !"/" l) = has_prefix !"/" (x :: d)) by reflexivity.
    rewrite R. change ((x :: d) ++ !"/" ++ join !"/" l) with ((x :: d) ++ "/"%char :: join !"/" l).

    rewrite split_app_single. rewrite (S l) by auto. rewrite fold_left_app. rewrite K by auto. auto.
Qed.

Lemma sanitize_entry : forall n, n <> [] -> n <> !"." -> n <> !".." -> entry_name (SanitizeFilename n).
Proof.
  intros n A B C. split; [|split; [|split]].
  - intros E. apply A. apply SanitizeFilename_inj. rewrite E; reflexivity.
  - intros E. apply B. apply SanitizeFilename_inj. rewrite E; reflexivity.
  - intros E. apply C. apply SanitizeFilename_inj. rewrite E; reflexivity.
  - apply SanitizeFilename_reserved. vm_compute; tauto.
Qed.

Lemma GetDirPath_render : forall d f, entry_name f ->
  GetDirPathInCache d f = render_path (has_prefix !"/" d) (f :: base_acc d).
Proof. intros d f H. unfold GetDirPathInCache. rewrite path_join_entries; auto; discriminate. Qed.

Lemma GetFilePath_direct_child : forall d f n, entry_name f -> n <> [] -> n <> !"." -> n <> !".." ->
  GetFilePathInCache d f n = GetDirPathInCache d f ++ "/"%char :: SanitizeFilename n.
Proof.
  intros d f n Hf A B C. unfold GetFilePathInCache. rewrite path_join_entries.
  - simpl rev. simpl app. rewrite render_path_cons by discriminate. rewrite GetDirPath_render; auto.
  - discriminate.
  - constructor; auto. constructor; auto. apply sanitize_entry; auto.
Qed.

Lemma last_slash_inj : forall a b x y, ~ In "/"%char x -> ~ In "/"%char y ->
  a ++ "/"%char :: x = b ++ "/"%char :: y -> a = b /\ x = y.
Proof.
  intros a b x y Hx Hy E.
  assert (E2 : rev x ++ "/"%char :: rev a = rev y ++ "/"%char :: rev b).
  { apply (f_equal (@rev ascii)) in E. rewrite !rev_app_distr in E. simpl in E. rewrite <- !app_assoc in E. auto. }
  assert (G : forall u v p q, ~ In "/"%char u -> ~ In "/"%char v ->
              u ++ "/"%char :: p = v ++ "/"%char :: q -> u = v /\ p = q).
  { clear. induction u as [|c u IH]; intros [|e v] p q Hu Hv E; simpl in E; inversion E; subst; auto.
    - exfalso; apply Hv; left; auto.
    - exfalso; apply Hu; left; auto.
    - destruct (IH v p q) as [-> ->]; auto; intros K; [apply Hu|apply Hv]; right; auto. }
  destruct (G _ _ _ _ (fun K => Hx (proj2 (in_rev x _) K)) (fun K => Hy (proj2 (in_rev y _) K)) E2) as [A B].
  split; [rewrite <- (rev_involutive a), B|rewrite <- (rev_involutive x), A]; apply rev_involutive.
Qed.

Lemma GetDirPath_inj : forall d f g, entry_name f -> entry_name g ->
  GetDirPathInCache d f = GetDirPathInCache d g -> f = g.
Proof.
  intros d f g Hf Hg E. rewrite !GetDirPath_render in E by auto.
  destruct Hf as (_ & _ & _ & Sf), Hg as (_ & _ & _ & Sg).
  destruct (base_acc d) as [|a acc] eqn:K.
  - unfold render_path in E. simpl in E. apply app_inv_head in E; auto.
  - rewrite (render_path_cons _ f), (render_path_cons _ g) in E by discriminate. apply last_slash_inj in E as [_ E]; auto.
Qed.

Lemma GetFilePath_inj : forall d f1 n1 f2 n2,
  entry_name f1 -> entry_name f2 ->
  n1 <> [] -> n1 <> !"." -> n1 <> !".." -> n2 <> [] -> n2 <> !"." -> n2 <> !".." ->
  GetFilePathInCache d f1 n1 = GetFilePathInCache d f2 n2 -> f1 = f2 /\ n1 = n2.
Proof.
  intros d f1 n1 f2 n2 F1 F2 A1 B1 C1 A2 B2 C2 E.
  rewrite !GetFilePath_direct_child in E by auto.
  apply last_slash_inj in E as [E1 E2]; try (apply SanitizeFilename_reserved; vm_compute; tauto).
  split; [eapply GetDirPath_inj; eauto|apply SanitizeFilename_inj; auto].
Qed.

Lemma GetRelativeFilePath_eq : forall f n, entry_name f -> n <> [] -> n <> !"." -> n <> !".." ->
  GetRelativeFilePathInCache f n = f ++ "/"%char :: SanitizeFilename n.
Proof.
  intros f n Hf A B C. unfold GetRelativeFilePathInCache. rewrite path_join_entries.
  - simpl rev. change (base_acc !".") with (@nil str). rewrite app_nil_r. simpl app.
    unfold render_path. reflexivity.
  - discriminate.
  - constructor; auto. constructor; auto. apply sanitize_entry; auto.
Qed.

Lemma cache_folders_entry : forall f, In f cache_folders -> entry_name f.
Proof.
  intros f H. unfold cache_folders in H.
  repeat (destruct H as [<-|H]; [repeat split; try discriminate; vm_compute; intuition discriminate|]). contradiction.
Qed.

(** The guard accepts every cache path if it accepts the cache directory. *)

Lemma fold_clean_In : forall rooted l acc x, In x (fold_left (clean_step rooted) l acc) -> In x acc \/ In x l.
Proof.
  intros rooted l; induction l as [|c l IH]; intros acc x H; simpl in *; auto.
  apply IH in H as [H|H]; auto.
  unfold clean_step in H. destruct (str_eqb c [] || str_eqb c !"."); auto.
  destruct (str_eqb c !"..").
  - destruct acc as [|a acc].
    + destruct rooted; simpl in H; [contradiction|destruct H as [->|[]]; auto].
    + destruct (str_eqb a !".."); simpl in H; simpl; tauto.
  - simpl in H; tauto.
Qed.

Lemma split_render : forall rooted acc, Forall (fun c => ~ In "/"%char c) acc ->
  forall c, In c (split !"/" (render_path rooted acc)) -> c = [] \/ c = !"." \/ In c acc.
Proof.
  intros rooted acc F c H. unfold render_path in H. destruct acc as [|a acc].
  - destruct rooted; vm_compute in H; intuition.
  - assert (S : split !"/" (join !"/" (rev (a :: acc))) = rev (a :: acc)).
    { apply split_join_single.
      - simpl; intros E; apply app_eq_nil in E as [_ E]; discriminate.
      - apply Forall_rev; auto. }
    destruct rooted.
    + change (!"/" ++ join !"/" (rev (a :: acc))) with ("/"%char :: join !"/" (rev (a :: acc))) in H.
      rewrite split_single_cons, S in H.
      destruct H as [<-|H]; auto. right; right; apply in_rev; auto.
    + change ([] ++ join !"/" (rev (a :: acc))) with (join !"/" (rev (a :: acc))) in H.
      rewrite S in H. right; right; apply in_rev; auto.
Qed.

Lemma part_sanitized_entry_nil : part_is_sanitized [] = true.
Proof. reflexivity. Qed.

Lemma GetFilePath_guard : forall d f n, IsSanitized d = true -> IsSanitized f = true -> entry_name f ->
  n <> [] -> n <> !"." -> n <> !".." -> IsSanitized (GetFilePathInCache d f n) = true.
Proof.
  intros d f n Hd Hf Ef A B C. unfold GetFilePathInCache.
  pose proof (sanitize_entry n A B C) as En.
  rewrite path_join_entries; [|discriminate|constructor; [auto|constructor; auto]].
  unfold IsSanitized in *. apply forallb_forall. intros c Hc.
  assert (FS : Forall (fun c => ~ In "/"%char c) (base_acc d)).
  { apply Forall_forall. intros x Hx. unfold base_acc in Hx. apply fold_clean_In in Hx as [[]|Hx].
    unfold base_comps in Hx. destruct d as [|y d]; [contradiction|].
    pose proof (split_single_pieces "/"%char (y :: d)) as K. rewrite Forall_forall in K. apply K; auto. }
  apply split_render in Hc.
  2:{ simpl rev. simpl app. constructor; [apply En|]. constructor; [apply Ef|auto]. }
  destruct Hc as [->|[->|Hc]]; [reflexivity|reflexivity|].
  simpl in Hc. destruct Hc as [<-|[<-|Hc]].
  - apply part_sanitized_escaped, SanitizeFilename_escaped.
  - rewrite split_slash_entry in Hf by auto. simpl in Hf. rewrite andb_true_r in Hf; auto.
  - unfold base_acc in Hc. apply fold_clean_In in Hc as [[]|Hc].
    unfold base_comps in Hc. destruct d as [|y d]; [contradiction|].
    rewrite forallb_forall in Hd. apply Hd; auto.
Qed.

Lemma RemoveDuplicates_first : forall l, RemoveDuplicates l = first_occurrences l.
Proof.
  intros l; induction l as [|x l IH] using rev_ind; auto.
  unfold RemoveDuplicates in *. rewrite RemoveDuplicates_loop_snoc, IH.
  unfold first_occurrences. rewrite app_length, seq_app, flat_map_app. f_equal.
  - assert (E : forall i, In i (seq 0 (length l)) ->
      match nth_error l i with Some y => if in_dec str_eq_dec y (firstn i l) then [] else [y] | None => [] end =
      match nth_error (l ++ [x]) i with Some y => if in_dec str_eq_dec y (firstn i (l ++ [x])) then [] else [y] | None => [] end).
    { intros i Hi. apply in_seq in Hi. rewrite nth_error_app1 by lia.
      rewrite firstn_app. replace (i - length l) with 0 by lia. simpl. rewrite app_nil_r. auto. }
    revert E. generalize (seq 0 (length l)). intros is. induction is as [|i is IHi]; simpl; intros E; auto.
    rewrite E by (left; auto). f_equal. apply IHi; intros; apply E; right; auto.
  - simpl. rewrite nth_error_app2, Nat.sub_diag by lia. simpl.
    rewrite firstn_app, firstn_all, Nat.sub_diag. simpl. rewrite !app_nil_r.
    destruct (in_dec str_eq_dec x l) as [H|H].
    + apply mem_str_In in H; rewrite H; auto.
    + apply mem_str_not_In in H; rewrite H; auto.
Qed.
