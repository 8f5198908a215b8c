(** * Proofs about configurations *)

From Coq Require Import Ascii String.
From Coq Require Import List Arith ZArith Bool Lia Permutation.
From Verif Require Import GoStr GoStrFacts UtilModel UtilSpec UtilProofs MainModel MainSpec MainProofs ConfigModel ConfigSpec.
Import ListNotations.
Local Open Scope list_scope.

(** ** Validation *)

Lemma usable_template_spec : forall t, has_placeholders t = true <-> usable_template t.
Proof.
  intros t. unfold has_placeholders, usable_template. rewrite andb_true_iff.
  unfold InputPlaceholder, OutputPlaceholder. rewrite !contains_spec. tauto.
Qed.

Lemma usable_nonempty : forall t, usable_template t -> str_eqb t [] = false.
Proof. intros t ((a & b & E) & _). apply str_eqb_neq. intros ->. destruct a; discriminate. Qed.

Lemma template_spec : forall t,
  (if negb (str_eqb t []) then has_placeholders t else true) = true <-> t = [] \/ usable_template t.
Proof.
  intros t. destruct (str_eqb t []) eqn:E; simpl.
  - apply str_eqb_eq in E. tauto.
  - rewrite usable_template_spec. apply str_eqb_neq in E. tauto.
Qed.

Lemma eqb3 : forall v a b c,
  negb (negb (str_eqb v a) && negb (str_eqb v b) && negb (str_eqb v c)) = true <-> one_of [a; b; c] v.
Proof.
  intros v a b c. unfold one_of; simpl.
  destruct (str_eqb v a) eqn:A; [apply str_eqb_eq in A; subst; simpl; tauto|].
  destruct (str_eqb v b) eqn:B; [apply str_eqb_eq in B; subst; simpl; tauto|].
  destruct (str_eqb v c) eqn:C; [apply str_eqb_eq in C; subst; simpl; tauto|].
  apply str_eqb_neq in A, B, C. simpl. split; [discriminate|]. intuition congruence.
Qed.

Definition output_pairs : list (str * str) :=
  [(!"epub2", !"pandoc"); (!"epub3", !"pandoc"); (!"epub3", !"internal"); (!"stats-json", !"internal"); (!"stats-txt", !"internal")].

Ltac find_in := first [left; reflexivity | right; find_in].

Lemma output_spec : forall t d,
  negb (negb (str_eqb t !"epub2") && negb (str_eqb t !"epub3") && negb (str_eqb t !"stats-json") && negb (str_eqb t !"stats-txt")) &&
  negb (negb (str_eqb d !"pandoc") && negb (str_eqb d !"internal")) && VerifyOutputAndDriver t d = true <-> In (t, d) output_pairs.
Proof.
  intros t d. unfold VerifyOutputAndDriver. split.
  - intros H. unfold output_pairs.
    repeat match type of H with context [str_eqb t ?x] => destruct (str_eqb t x) eqn:?; [match goal with E : str_eqb t _ = true |- _ => apply str_eqb_eq in E end|] end; simpl in H; try discriminate;
    repeat match type of H with context [str_eqb d ?x] => destruct (str_eqb d x) eqn:?; [match goal with E : str_eqb d _ = true |- _ => apply str_eqb_eq in E end|] end; simpl in H; try discriminate;
    subst; try discriminate; find_in.
  - intros H. unfold output_pairs in H. simpl in H.
    repeat destruct H as [H|H]; try contradiction; inversion H; subst; reflexivity.
Qed.

Lemma AssertValidity_spec : forall c, AssertValidity c = true <-> valid_configuration c.
Proof.
  intros c. unfold AssertValidity. cbv zeta.
  rewrite !andb_true_iff. rewrite !template_spec. rewrite !eqb3. rewrite usable_template_spec.
  rewrite !negb_true_iff, orb_false_iff, !Z.ltb_ge, !Z.leb_gt.
  pose proof (output_spec (strings c OutputType) (strings c OutputDriver)) as O. rewrite !andb_true_iff, !negb_true_iff in O.
  split.
  - intros H. decompose [and] H. constructor; auto; try lia. apply O. tauto.
  - intros [V1 V2 V3 V4 V5 V6 V7 V8 V9 V10 V11 V12]. apply O in V1.
    assert (X := usable_nonempty _ V6).
    repeat match goal with |- _ /\ _ => split end; try tauto; lia.
Qed.

(** ** Paths *)

Lemma clean_step_entries : forall comps acc, Forall (fun c => ~ In "/"%char c) comps -> Forall entry_name acc ->
  Forall entry_name (fold_left (clean_step true) comps acc).
Proof.
  induction comps as [|c comps IH]; intros acc F A; simpl; auto. inversion F; subst. apply IH; auto.
  unfold clean_step. destruct (str_eqb c [] || str_eqb c !".") eqn:E; auto.
  apply orb_false_iff in E as [E1 E2]. apply str_eqb_neq in E1, E2.
  destruct (str_eqb c !"..") eqn:D.
  - destruct acc as [|a acc]; auto. inversion A; subst. destruct (str_eqb a !"..") eqn:X; auto.
    apply str_eqb_eq in X. destruct H3 as (_ & _ & Y & _). contradiction.
  - apply str_eqb_neq in D. constructor; auto. split; [|split; [|split]]; auto.
Qed.

Lemma fold_clean_entries : forall l acc r, Forall entry_name l -> fold_left (clean_step r) l acc = rev l ++ acc.
Proof.
  induction l as [|a l IH]; intros acc r F; simpl; auto. inversion F; subst.
  rewrite fold_clean_entry by auto. rewrite IH by auto. rewrite <- app_assoc; auto.
Qed.

Lemma path_clean_idem : forall p, path_is_abs p = true -> path_clean (path_clean p) = path_clean p.
Proof.
  intros p H. unfold path_is_abs in H. unfold path_clean at 2 3. rewrite H.
  set (acc := fold_left (clean_step true) (split !"/" p) []).
  assert (A : Forall entry_name acc) by (apply clean_step_entries; [apply split_single_pieces|constructor]).
  clearbody acc. destruct acc as [|a acc]; [reflexivity|].
  unfold render_path. set (l := rev (a :: acc)).
  assert (NL : l <> []). { unfold l. simpl. intros X. apply app_eq_nil in X as [_ X]; discriminate. }
  assert (FL : Forall entry_name l) by (apply Forall_rev; auto).
  assert (S : split !"/" (!"/" ++ join !"/" l) = [] :: l).
  { change (!"/" ++ join !"/" l) with ([] ++ "/"%char :: join !"/" l). rewrite split_single_app by (intros []).
    rewrite split_join_single; auto. eapply Forall_impl; [|exact FL]. intros x (_ & _ & _ & X); auto. }
  unfold path_clean. change (has_prefix !"/" (!"/" ++ join !"/" l)) with true. cbv iota. cbv zeta.
  rewrite S. cbn [fold_left]. change (clean_step true [] []) with (@nil str).
  rewrite fold_clean_entries by auto. rewrite app_nil_r. unfold render_path.
  unfold l. rewrite rev_involutive. reflexivity.
Qed.

Lemma path_clean_abs : forall p, path_is_abs p = true -> path_is_abs (path_clean p) = true.
Proof.
  intros p H. unfold path_clean, path_is_abs in *. rewrite H. unfold render_path.
  destruct (fold_left (clean_step true) (split !"/" p) []); reflexivity.
Qed.

Lemma path_join_clean : forall d l, path_is_abs d = true -> path_clean (path_join (d :: l)) = path_join (d :: l).
Proof.
  intros d l H. destruct d as [|c d]; [discriminate|].
  change (path_join ((c :: d) :: l)) with (path_clean (join !"/" ((c :: d) :: l))).
  apply path_clean_idem. unfold path_is_abs in *. simpl in H. rewrite andb_true_r in H.
  destruct l; cbn [join]; cbn [app has_prefix]; simpl; rewrite H; auto.
Qed.

Lemma resolved_abs_path : forall cwd p, ToAbsolutePath cwd p = resolved cwd p.
Proof. intros cwd p. unfold ToAbsolutePath, resolved, path_is_abs. destruct p as [|c p]; auto. cbn [str_eqb negb andb].
  destruct (has_prefix !"/" (c :: p)); auto. Qed.

Lemma resolved_basedir : forall cwd dir p, path_is_abs dir = true -> ToAbsolutePathWithBasedir cwd dir p = resolved dir p.
Proof.
  intros cwd dir p H. unfold ToAbsolutePathWithBasedir, resolved, path_is_abs at 1. destruct p as [|c p]; auto.
  change (str_eqb (c :: p) []) with false. cbn [negb andb].
  destruct (has_prefix !"/" (c :: p)); cbn [negb]; auto.
  rewrite path_join_abs by auto. apply path_join_clean; auto.
Qed.

Definition stable (p : str) : Prop := p = [] \/ path_is_abs p = true.

Lemma resolved_stable : forall d p, path_is_abs d = true -> stable (resolved d p).
Proof.
  intros d p H. unfold resolved. destruct p as [|c p]; [left; auto|]. right.
  destruct (has_prefix !"/" (c :: p)) eqn:E; auto. apply path_join_abs; auto.
Qed.

Lemma resolved_id : forall d p, stable p -> resolved d p = p.
Proof. intros d p [->|H]; auto. unfold resolved. unfold path_is_abs in H. destruct p; auto. rewrite H; auto. Qed.

Lemma path_dir_abs : forall p, path_is_abs p = true -> path_is_abs (path_dir p) = true.
Proof.
  intros p H. unfold path_dir. apply path_clean_abs. unfold path_is_abs in *.
  destruct p as [|c p]; [discriminate|]. cbn [has_prefix] in H. rewrite andb_true_r in H. apply Ascii.eqb_eq in H. subst c.
  assert (G : forall l, exists r, rev (drop_to_slash (l ++ !"/")) = "/"%char :: r).
  { induction l as [|x l (r & IH)]; simpl; [exists []; auto|]. destruct (Ascii.eqb x "/"); [|eauto].
    simpl. rewrite rev_app_distr. simpl. eauto. }
  simpl rev. destruct (G (rev p)) as (r & E). rewrite E. auto.
Qed.

(** ** Merging *)

Section Merge.
  Variable env : environment.
  Hypothesis cache_abs : path_is_abs (user_cache_dir env) = true.
  Let D := NewDefaultConfig env.

  Definition stable_paths (c : configuration) : Prop :=
    (forall k, is_path k -> stable (strings c k)) /\ Forall stable (lists c FontFiles).

  Lemma default_stable : stable_paths D.
  Proof.
    split.
    - intros k [->|[->|[->| ->]]]; unfold D, NewDefaultConfig; cbn [strings];
        [right; exact (path_join_abs _ _ cache_abs)| |left; auto|left; auto].
      destruct (style_file_exists env); [right|left]; auto.
    - constructor.
  Qed.

  Definition merged_string (cwd : str) (k : string_option) (v : option str) (cur : str) : str :=
    match v with
    | Some v => if str_eqb v (strings D k) then cur else meaning cwd k v
    | None => cur
    end.

  Lemma override_string_layer : forall cur l k,
    override_string env cur (apply_layer D l) k =
    match given_strings l k with Some v => if str_eqb v (strings D k) then strings cur k else v | None => strings cur k end.
  Proof.
    intros cur l k. unfold override_string. fold D. cbn [apply_layer strings]. destruct (given_strings l k) as [v|].
    - destruct (str_eqb v (strings D k)); auto.
    - rewrite str_eqb_refl. auto.
  Qed.

  Lemma override_path_layer : forall cwd cur l k,
    override_path env cwd cur (apply_layer D l) k =
    match given_strings l k with Some v => if str_eqb v (strings D k) then strings cur k else resolved cwd v | None => strings cur k end.
  Proof.
    intros cwd cur l k. unfold override_path. fold D. cbn [apply_layer strings]. 
    destruct (given_strings l k) as [v|].
    - destruct (str_eqb v (strings D k)); auto. cbn [negb]. apply resolved_abs_path.
    - rewrite str_eqb_refl. auto.
  Qed.

  Lemma merge_ok : forall cwd cur l c, MergeIntoCurrentConfig env cwd cur (apply_layer D l) = Ok c ->
    c = MakePathsAbsoluteToWorkingDir cwd (merge_options env cwd cur (apply_layer D l)) /\ valid_configuration c.
  Proof.
    intros cwd cur l c H. unfold MergeIntoCurrentConfig, asserted in H. fold D in H.
    destruct (AssertValidity _) eqn:E; inversion H; subst. split; auto. apply AssertValidity_spec; auto.
  Qed.

  Lemma merge_string : forall cwd cur l c k, path_is_abs cwd = true -> stable_paths cur ->
    MergeIntoCurrentConfig env cwd cur (apply_layer D l) = Ok c ->
    strings c k = merged_string cwd k (given_strings l k) (strings cur k).
  Proof.
    intros cwd cur l c k A [S _] H. apply merge_ok in H as [-> _].
    assert (P : is_path k -> ToAbsolutePath cwd (override_path env cwd cur (apply_layer D l) k) = merged_string cwd k (given_strings l k) (strings cur k)).
    { intros I. rewrite override_path_layer, resolved_abs_path. unfold merged_string.
      assert (M : forall v, meaning cwd k v = resolved cwd v) by (intros v; destruct I as [->|[->|[->| ->]]]; reflexivity).
      destruct (given_strings l k) as [v|]; [rewrite M|]; [destruct (str_eqb v (strings D k))|]; apply resolved_id; auto.
      apply resolved_stable; auto. }
    assert (Q : (forall v, meaning cwd k v = v) -> override_string env cur (apply_layer D l) k = merged_string cwd k (given_strings l k) (strings cur k)).
    { intros M. rewrite override_string_layer. unfold merged_string. destruct (given_strings l k); auto. rewrite M; auto. }
    destruct k; cbn [MakePathsAbsoluteToWorkingDir merge_options strings];
      try (apply Q; intros; reflexivity); try (apply P; unfold is_path; tauto).
    rewrite override_string_layer, override_path_layer. cbn [apply_layer strings]. unfold merged_string, meaning.
    destruct (given_strings l PandocExecutable) as [v|]; [|destruct (contains _ _); auto].
    destruct (contains !"/" v); auto.
  Qed.

  Definition same_list (v d : list str) : bool := EqualsInAnyOrder v d.

  Lemma same_list_refl : forall d, same_list d d = true.
  Proof.
    intros d. unfold same_list, EqualsInAnyOrder. rewrite Nat.eqb_refl. apply forallb_forall. intros x Hx.
    apply andb_true_iff. split; apply mem_str_In; auto.
  Qed.

  Lemma same_list_differs : forall v d, differs v d -> same_list v d = false.
  Proof.
    intros v d [H|(x & Hv & Hd)]; unfold same_list, EqualsInAnyOrder.
    - apply andb_false_iff. left. apply Nat.eqb_neq; auto.
    - apply andb_false_iff. right. destruct (forallb _ v) eqn:E; auto. rewrite forallb_forall in E. apply E in Hv.
      apply andb_true_iff in Hv as [_ Hv]. apply mem_str_In in Hv. contradiction.
  Qed.

  Definition merged_list (cwd : str) (k : list_option) (v : option (list str)) (cur : list str) : list str :=
    match v with
    | Some v => if same_list v (lists D k) then cur else list_meaning cwd k v
    | None => cur
    end.

  Lemma override_list_layer : forall cur l k,
    override_list env cur (apply_layer D l) k =
    match given_lists l k with Some v => if same_list v (lists D k) then lists cur k else v | None => lists cur k end.
  Proof.
    intros cur l k. unfold override_list. fold D. cbn [apply_layer lists]. fold (same_list).
    destruct (given_lists l k) as [v|].
    - unfold same_list. destruct (EqualsInAnyOrder v (lists D k)); auto.
    - assert (X := same_list_refl (lists D k)). unfold same_list in X. rewrite X. auto.
  Qed.

  Lemma map_resolved_id : forall cwd l, Forall stable l -> map (ToAbsolutePath cwd) l = l.
  Proof. intros cwd l F; induction F; simpl; auto. rewrite resolved_abs_path, resolved_id by auto. congruence. Qed.

  Lemma merge_list : forall cwd cur l c k, path_is_abs cwd = true -> stable_paths cur ->
    MergeIntoCurrentConfig env cwd cur (apply_layer D l) = Ok c ->
    lists c k = merged_list cwd k (given_lists l k) (lists cur k).
  Proof.
    intros cwd cur l c k A [_ S] H. apply merge_ok in H as [-> _].
    assert (Q : (forall v, list_meaning cwd k v = v) -> override_list env cur (apply_layer D l) k = merged_list cwd k (given_lists l k) (lists cur k)).
    { intros M. rewrite override_list_layer. unfold merged_list. destruct (given_lists l k); auto. rewrite M; auto. }
    destruct k; cbn [MakePathsAbsoluteToWorkingDir merge_options lists]; try (apply Q; intros; reflexivity).
    fold D. cbn [apply_layer lists]. unfold merged_list. destruct (given_lists l FontFiles) as [v|].
    - unfold same_list. destruct (EqualsInAnyOrder v (lists D FontFiles)); cbn [negb]; [apply map_resolved_id; auto|].
      cbn [list_meaning]. rewrite (map_ext _ _ (resolved_abs_path cwd) v). apply map_resolved_id.
      apply Forall_forall. intros x Hx. apply in_map_iff in Hx as (y & <- & _). apply resolved_stable; auto.
    - assert (X := same_list_refl (lists D FontFiles)). unfold same_list in X. rewrite X. cbn [negb]. apply map_resolved_id; auto.
  Qed.

  Lemma merge_int : forall cwd cur l c k,
    MergeIntoCurrentConfig env cwd cur (apply_layer D l) = Ok c ->
    ints c k = match given_ints l k with Some v => if (v =? ints D k)%Z then ints cur k else v | None => ints cur k end.
  Proof.
    intros cwd cur l c k H. apply merge_ok in H as [-> _].
    assert (Q : override_int env cur (apply_layer D l) k = match given_ints l k with Some v => if (v =? ints D k)%Z then ints cur k else v | None => ints cur k end).
    { unfold override_int. fold D. cbn [apply_layer ints]. destruct (given_ints l k) as [v|]; [destruct (v =? ints D k)%Z; auto|].
      rewrite Z.eqb_refl. auto. }
    destruct k; exact Q.
  Qed.

  Lemma merge_bool : forall cwd cur l c k,
    MergeIntoCurrentConfig env cwd cur (apply_layer D l) = Ok c ->
    bools c k = match given_bools l k with Some v => if Bool.eqb v (bools D k) then bools cur k else v | None => bools cur k end.
  Proof.
    intros cwd cur l c k H. apply merge_ok in H as [-> _].
    assert (Q : override_bool env cur (apply_layer D l) k = match given_bools l k with Some v => if Bool.eqb v (bools D k) then bools cur k else v | None => bools cur k end).
    { unfold override_bool. fold D. cbn [apply_layer bools]. destruct (given_bools l k) as [v|]; [destruct (Bool.eqb v (bools D k)); auto|].
      rewrite eqb_reflx. auto. }
    destruct k; exact Q.
  Qed.

  Lemma merge_stable : forall cwd cur l c, path_is_abs cwd = true -> stable_paths cur ->
    MergeIntoCurrentConfig env cwd cur (apply_layer D l) = Ok c -> stable_paths c.
  Proof.
    intros cwd cur l c A S H. split.
    - intros k I. rewrite (merge_string cwd cur l c k A S H). unfold merged_string.
      assert (M : forall v, meaning cwd k v = resolved cwd v) by (intros v; destruct I as [->|[->|[->| ->]]]; reflexivity).
      destruct (given_strings l k) as [v|]; [destruct (str_eqb v (strings D k))|]; try (apply S; auto).
      rewrite M. apply resolved_stable; auto.
    - rewrite (merge_list cwd cur l c FontFiles A S H). unfold merged_list.
      destruct (given_lists l FontFiles) as [v|]; [destruct (same_list v (lists D FontFiles))|]; try (apply S; auto).
      cbn [list_meaning]. apply Forall_forall. intros x Hx. apply in_map_iff in Hx as (y & <- & _). apply resolved_stable; auto.
  Qed.

  (** ** The configuration file *)

  Definition config_dir (cwd file : str) : str := path_dir (ToAbsolutePath cwd file).

  Lemma config_dir_abs : forall cwd file, path_is_abs cwd = true -> file <> [] -> path_is_abs (config_dir cwd file) = true.
  Proof. intros cwd file A N. apply path_dir_abs. apply ToAbsolutePath_abs; auto. Qed.

  Lemma load_spec : forall cwd file content c, path_is_abs cwd = true -> file <> [] ->
    LoadConfig cwd file content D = Ok c ->
    (forall k, strings c k = match given_strings content k with Some v => file_meaning (config_dir cwd file) k v | None => strings D k end) /\
    (forall k, lists c k = match given_lists content k with Some v => file_list_meaning (config_dir cwd file) k v | None => lists D k end) /\
    (forall k, ints c k = match given_ints content k with Some v => v | None => ints D k end) /\
    (forall k, bools c k = match given_bools content k with Some v => v | None => bools D k end) /\
    stable_paths c /\ valid_configuration c.
  Proof.
    intros cwd file content c A N H. unfold LoadConfig, asserted in H. destruct (AssertValidity _) eqn:E; inversion H; subst c. clear H.
    apply AssertValidity_spec in E. assert (AD := config_dir_abs cwd file A N).
    assert (R : forall p, ToAbsolutePathWithBasedir cwd (path_dir (ToAbsolutePath cwd file)) p = resolved (config_dir cwd file) p).
    { intros p. apply resolved_basedir. exact AD. }
    assert (S : forall k, strings (makePathsAbsolute cwd file (apply_layer D content)) k =
       match given_strings content k with Some v => file_meaning (config_dir cwd file) k v | None => strings D k end).
    { intros k.
      assert (P : is_path k -> resolved (config_dir cwd file) (strings (apply_layer D content) k) =
        match given_strings content k with Some v => file_meaning (config_dir cwd file) k v | None => strings D k end).
      { intros I. cbn [apply_layer strings].
        assert (M : forall v, file_meaning (config_dir cwd file) k v = resolved (config_dir cwd file) v) by (intros v; destruct I as [->|[->|[->| ->]]]; reflexivity).
        destruct (given_strings content k); [rewrite M; auto|]. apply resolved_id. apply default_stable; auto. }
      destruct k; cbn [makePathsAbsolute strings]; rewrite ?R; try reflexivity; apply P; unfold is_path; tauto. }
    assert (L : forall k, lists (makePathsAbsolute cwd file (apply_layer D content)) k =
       match given_lists content k with Some v => file_list_meaning (config_dir cwd file) k v | None => lists D k end).
    { intros k. destruct k; cbn [makePathsAbsolute lists apply_layer]; try reflexivity.
      destruct (given_lists content FontFiles); reflexivity. }
    split; [exact S|]. split; [exact L|]. split; [intros k; reflexivity|]. split; [intros k; reflexivity|]. split; [|exact E].
    split.
    - intros k I. rewrite S. destruct (given_strings content k); [|apply default_stable; auto].
      destruct I as [->|[->|[->| ->]]]; apply resolved_stable; auto.
    - rewrite L. destruct (given_lists content FontFiles); [|constructor]. cbn [file_list_meaning].
      apply Forall_forall. intros x Hx. apply in_map_iff in Hx as (y & <- & _). right. exact (path_join_abs _ _ AD).
  Qed.
End Merge.

(** ** Effective configurations *)

Lemma initial_spec : forall env cwd pd cf c, usual_paths env cwd pd cf -> initial_config env cwd cf = Ok c ->
  (forall k, strings c k = first_given [from_file (fun l => given_strings l k) (fun d => file_meaning d k) cwd cf] (strings (NewDefaultConfig env) k)) /\
  (forall k, lists c k = first_given [from_file (fun l => given_lists l k) (fun d => file_list_meaning d k) cwd cf] (lists (NewDefaultConfig env) k)) /\
  (forall k, ints c k = first_given [from_file (fun l => given_ints l k) (fun _ v => v) cwd cf] (ints (NewDefaultConfig env) k)) /\
  (forall k, bools c k = first_given [from_file (fun l => given_bools l k) (fun _ v => v) cwd cf] (bools (NewDefaultConfig env) k)) /\
  stable_paths c.
Proof.
  intros env cwd pd cf c (A & B & U & N) H. destruct cf as [[file content]|].
  - cbn [initial_config] in H. destruct (load_spec env U cwd file content c A N H) as (S & L & I & Bo & St & _).
    unfold config_dir in *. rewrite resolved_abs_path in *.
    split; [|split; [|split; [|split; [|exact St]]]]; intros k; unfold from_file.
    + rewrite S. destruct (given_strings content k); reflexivity.
    + rewrite L. destruct (given_lists content k); reflexivity.
    + rewrite I. destruct (given_ints content k); reflexivity.
    + rewrite Bo. destruct (given_bools content k); reflexivity.
  - inversion H; subst. split; [|split; [|split; [|split]]]; try (intros k; reflexivity). apply default_stable; auto.
Qed.

Lemma bind_ok : forall {A B} (x : res A) (f : A -> res B) b, (let! p := x in f p) = Ok b -> exists a, x = Ok a /\ f a = Ok b.
Proof. intros A B x f b H. destruct x; try discriminate. eauto. Qed.

Section Effective.
  Variables (env : environment) (cwd pd : str) (cf : option (str * layer)) (project cli : layer) (c : configuration).
  Hypothesis U : usual_paths env cwd pd cf.
  Let D := NewDefaultConfig env.

  Lemma project_strings : project_config env cwd pd cf project cli = Ok c -> forall k,
    strings c k = merged_string env pd k (given_strings cli k) (merged_string env pd k (given_strings project k)
      (first_given [from_file (fun l => given_strings l k) (fun d => file_meaning d k) cwd cf] (strings D k))).
  Proof.
    intros H k. unfold project_config in H. apply bind_ok in H as (c0 & H0 & H). apply bind_ok in H as (c1 & H1 & H2).
    destruct (initial_spec env cwd pd cf c0 U H0) as (S & _ & _ & _ & St). destruct U as (A & B & C & _).
    rewrite (merge_string env pd c1 cli c k B); [|exact (merge_stable env pd c0 project c1 B St H1)|exact H2].
    rewrite (merge_string env pd c0 project c1 k B St H1). rewrite (S k). reflexivity.
  Qed.

  Lemma project_lists : project_config env cwd pd cf project cli = Ok c -> forall k,
    lists c k = merged_list env pd k (given_lists cli k) (merged_list env pd k (given_lists project k)
      (first_given [from_file (fun l => given_lists l k) (fun d => file_list_meaning d k) cwd cf] (lists D k))).
  Proof.
    intros H k. unfold project_config in H. apply bind_ok in H as (c0 & H0 & H). apply bind_ok in H as (c1 & H1 & H2).
    destruct (initial_spec env cwd pd cf c0 U H0) as (_ & S & _ & _ & St). destruct U as (A & B & C & _).
    rewrite (merge_list env pd c1 cli c k B); [|exact (merge_stable env pd c0 project c1 B St H1)|exact H2].
    rewrite (merge_list env pd c0 project c1 k B St H1). rewrite (S k). reflexivity.
  Qed.

  Lemma project_ints : project_config env cwd pd cf project cli = Ok c -> forall k,
    let skip v cur := match v with Some v => if (v =? ints D k)%Z then cur else v | None => cur end in
    ints c k = skip (given_ints cli k) (skip (given_ints project k)
      (first_given [from_file (fun l => given_ints l k) (fun _ v => v) cwd cf] (ints D k))).
  Proof.
    intros H k skip. unfold project_config in H. apply bind_ok in H as (c0 & H0 & H). apply bind_ok in H as (c1 & H1 & H2).
    destruct (initial_spec env cwd pd cf c0 U H0) as (_ & _ & S & _ & St). destruct U as (A & B & C & _).
    rewrite (merge_int env pd c1 cli c k H2), (merge_int env pd c0 project c1 k H1). rewrite (S k). reflexivity.
  Qed.

  Lemma project_bools : project_config env cwd pd cf project cli = Ok c -> forall k,
    let skip v cur := match v with Some v => if Bool.eqb v (bools D k) then cur else v | None => cur end in
    bools c k = skip (given_bools cli k) (skip (given_bools project k)
      (first_given [from_file (fun l => given_bools l k) (fun _ v => v) cwd cf] (bools D k))).
  Proof.
    intros H k skip. unfold project_config in H. apply bind_ok in H as (c0 & H0 & H). apply bind_ok in H as (c1 & H1 & H2).
    destruct (initial_spec env cwd pd cf c0 U H0) as (_ & _ & _ & S & St). destruct U as (A & B & C & _).
    rewrite (merge_bool env pd c1 cli c k H2), (merge_bool env pd c0 project c1 k H1). rewrite (S k). reflexivity.
  Qed.

  Lemma project_valid : project_config env cwd pd cf project cli = Ok c -> valid_configuration c.
  Proof.
    intros H. unfold project_config in H. apply bind_ok in H as (c0 & H0 & H). apply bind_ok in H as (c1 & H1 & H2).
    apply merge_ok in H2. apply H2.
  Qed.

  Lemma article_spec : article_config env cwd cf cli = Ok c ->
    (forall k, strings c k = merged_string env cwd k (given_strings cli k)
      (first_given [from_file (fun l => given_strings l k) (fun d => file_meaning d k) cwd cf] (strings D k))) /\
    (forall k, lists c k = merged_list env cwd k (given_lists cli k)
      (first_given [from_file (fun l => given_lists l k) (fun d => file_list_meaning d k) cwd cf] (lists D k))) /\
    (forall k, ints c k = match given_ints cli k with Some v => if (v =? ints D k)%Z then
        first_given [from_file (fun l => given_ints l k) (fun _ v => v) cwd cf] (ints D k) else v
        | None => first_given [from_file (fun l => given_ints l k) (fun _ v => v) cwd cf] (ints D k) end) /\
    (forall k, bools c k = match given_bools cli k with Some v => if Bool.eqb v (bools D k) then
        first_given [from_file (fun l => given_bools l k) (fun _ v => v) cwd cf] (bools D k) else v
        | None => first_given [from_file (fun l => given_bools l k) (fun _ v => v) cwd cf] (bools D k) end) /\
    valid_configuration c.
  Proof.
    intros H. unfold article_config in H. apply bind_ok in H as (c0 & H0 & H1).
    destruct (initial_spec env cwd pd cf c0 U H0) as (S & L & I & Bo & St). destruct U as (A & B & C & _).
    split; [|split; [|split; [|split]]].
    - intros k. rewrite (merge_string env cwd c0 cli c k A St H1), S. reflexivity.
    - intros k. rewrite (merge_list env cwd c0 cli c k A St H1), L. reflexivity.
    - intros k. rewrite (merge_int env cwd c0 cli c k H1), I. reflexivity.
    - intros k. rewrite (merge_bool env cwd c0 cli c k H1), Bo. reflexivity.
    - apply merge_ok in H1. apply H1.
  Qed.
End Effective.

(** ** Statements used in the final theorems *)

Section Final.
  Variables (env : environment) (cwd pd : str) (cf : option (str * layer)) (project cli : layer) (c : configuration).
  Hypothesis U : usual_paths env cwd pd cf.
  Let D := NewDefaultConfig env.

  Lemma merged_string_new : forall dir k v cur, v <> Some (strings D k) ->
    merged_string env dir k v cur = match option_map (meaning dir k) v with Some x => x | None => cur end.
  Proof.
    intros dir k v cur N. unfold merged_string, D in *. destruct v as [v|]; auto.
    assert (E : str_eqb v (strings (NewDefaultConfig env) k) = false) by (apply str_eqb_neq; congruence). rewrite E. auto.
  Qed.

  Lemma merged_list_new : forall dir k v cur, (forall x, v = Some x -> differs x (lists D k)) ->
    merged_list env dir k v cur = match option_map (list_meaning dir k) v with Some x => x | None => cur end.
  Proof.
    intros dir k v cur N. unfold merged_list, D in *. destruct v as [v|]; auto. rewrite same_list_differs by auto. auto.
  Qed.

  Lemma project_precedence : project_config env cwd pd cf project cli = Ok c ->
    (forall k, given_strings cli k <> Some (strings D k) -> given_strings project k <> Some (strings D k) ->
       strings c k = first_given [option_map (meaning pd k) (given_strings cli k);
                                  option_map (meaning pd k) (given_strings project k);
                                  from_file (fun l => given_strings l k) (fun d => file_meaning d k) cwd cf] (strings D k)) /\
    (forall k, (forall v, given_lists cli k = Some v -> differs v (lists D k)) ->
               (forall v, given_lists project k = Some v -> differs v (lists D k)) ->
       lists c k = first_given [option_map (list_meaning pd k) (given_lists cli k);
                                option_map (list_meaning pd k) (given_lists project k);
                                from_file (fun l => given_lists l k) (fun d => file_list_meaning d k) cwd cf] (lists D k)) /\
    (forall k, given_ints cli k <> Some (ints D k) -> given_ints project k <> Some (ints D k) ->
       ints c k = first_given [given_ints cli k; given_ints project k;
                               from_file (fun l => given_ints l k) (fun _ v => v) cwd cf] (ints D k)) /\
    (forall k, given_bools cli k <> Some (bools D k) -> given_bools project k <> Some (bools D k) ->
       bools c k = first_given [given_bools cli k; given_bools project k;
                                from_file (fun l => given_bools l k) (fun _ v => v) cwd cf] (bools D k)).
  Proof.
    intros H. split; [|split; [|split]]; intros k A B.
    - rewrite (project_strings env cwd pd cf project cli c U H k). rewrite !merged_string_new by auto.
      cbn [first_given]. destruct (option_map _ (given_strings cli k)); auto.
    - rewrite (project_lists env cwd pd cf project cli c U H k). rewrite !merged_list_new by auto.
      cbn [first_given]. destruct (option_map _ (given_lists cli k)); auto.
    - rewrite (project_ints env cwd pd cf project cli c U H k). fold D. cbn [first_given].
      destruct (given_ints cli k) as [v|].
      + assert (E : (v =? ints D k)%Z = false) by (apply Z.eqb_neq; congruence). rewrite E. auto.
      + destruct (given_ints project k) as [v|]; auto.
        assert (E : (v =? ints D k)%Z = false) by (apply Z.eqb_neq; congruence). rewrite E. auto.
    - rewrite (project_bools env cwd pd cf project cli c U H k). fold D. cbn [first_given].
      destruct (given_bools cli k) as [v|].
      + assert (E : Bool.eqb v (bools D k) = false) by (apply eqb_false_iff; congruence). rewrite E. auto.
      + destruct (given_bools project k) as [v|]; auto.
        assert (E : Bool.eqb v (bools D k) = false) by (apply eqb_false_iff; congruence). rewrite E. auto.
  Qed.

  Lemma article_precedence : article_config env cwd cf cli = Ok c ->
    (forall k, given_strings cli k <> Some (strings D k) ->
       strings c k = first_given [option_map (meaning cwd k) (given_strings cli k);
                                  from_file (fun l => given_strings l k) (fun d => file_meaning d k) cwd cf] (strings D k)) /\
    (forall k, (forall v, given_lists cli k = Some v -> differs v (lists D k)) ->
       lists c k = first_given [option_map (list_meaning cwd k) (given_lists cli k);
                                from_file (fun l => given_lists l k) (fun d => file_list_meaning d k) cwd cf] (lists D k)) /\
    (forall k, given_ints cli k <> Some (ints D k) ->
       ints c k = first_given [given_ints cli k; from_file (fun l => given_ints l k) (fun _ v => v) cwd cf] (ints D k)) /\
    (forall k, given_bools cli k <> Some (bools D k) ->
       bools c k = first_given [given_bools cli k; from_file (fun l => given_bools l k) (fun _ v => v) cwd cf] (bools D k)).
  Proof.
    intros H. destruct (article_spec env cwd pd cf cli c U H) as (S & L & I & Bo & _).
    split; [|split; [|split]]; intros k A.
    - rewrite (S k), merged_string_new by auto. cbn [first_given]. destruct (option_map _ (given_strings cli k)); auto.
    - rewrite (L k), merged_list_new by auto. cbn [first_given]. destruct (option_map _ (given_lists cli k)); auto.
    - rewrite (I k). fold D. cbn [first_given]. destruct (given_ints cli k) as [v|]; auto.
      assert (E : (v =? ints D k)%Z = false) by (apply Z.eqb_neq; congruence). rewrite E. auto.
    - rewrite (Bo k). fold D. cbn [first_given]. destruct (given_bools cli k) as [v|]; auto.
      assert (E : Bool.eqb v (bools D k) = false) by (apply eqb_false_iff; congruence). rewrite E. auto.
  Qed.

  Lemma cli_default_ignored : project_config env cwd pd cf project cli = Ok c ->
    (forall k, given_strings cli k = Some (strings D k) -> given_strings project k <> Some (strings D k) ->
       strings c k = first_given [option_map (meaning pd k) (given_strings project k);
                                  from_file (fun l => given_strings l k) (fun d => file_meaning d k) cwd cf] (strings D k)) /\
    (forall k v, given_lists cli k = Some v -> Permutation v (lists D k) -> NoDup v ->
               (forall v, given_lists project k = Some v -> differs v (lists D k)) ->
       lists c k = first_given [option_map (list_meaning pd k) (given_lists project k);
                                from_file (fun l => given_lists l k) (fun d => file_list_meaning d k) cwd cf] (lists D k)) /\
    (forall k, given_ints cli k = Some (ints D k) -> given_ints project k <> Some (ints D k) ->
       ints c k = first_given [given_ints project k; from_file (fun l => given_ints l k) (fun _ v => v) cwd cf] (ints D k)) /\
    (forall k, given_bools cli k = Some (bools D k) -> given_bools project k <> Some (bools D k) ->
       bools c k = first_given [given_bools project k; from_file (fun l => given_bools l k) (fun _ v => v) cwd cf] (bools D k)).
  Proof.
    intros H. split; [|split; [|split]].
    - intros k A B. rewrite (project_strings env cwd pd cf project cli c U H k). rewrite A.
      assert (X : forall y, merged_string env pd k (Some (strings D k)) y = y).
      { intros y. unfold merged_string, D. rewrite str_eqb_refl. auto. }
      rewrite X. rewrite merged_string_new by auto. reflexivity.
    - intros k v A P N B. rewrite (project_lists env cwd pd cf project cli c U H k). rewrite A.
      assert (X : forall y, merged_list env pd k (Some v) y = y).
      { intros y. unfold merged_list, same_list. fold D.
        assert (E : EqualsInAnyOrder v (lists D k) = true) by (apply EqualsInAnyOrder_perm; auto). rewrite E. auto. }
      rewrite X. rewrite merged_list_new by auto. reflexivity.
    - intros k A B. rewrite (project_ints env cwd pd cf project cli c U H k). fold D. rewrite A, Z.eqb_refl. cbn [first_given].
      destruct (given_ints project k) as [v|]; auto.
      assert (E : (v =? ints D k)%Z = false) by (apply Z.eqb_neq; congruence). rewrite E. auto.
    - intros k A B. rewrite (project_bools env cwd pd cf project cli c U H k). fold D. rewrite A, eqb_reflx. cbn [first_given].
      destruct (given_bools project k) as [v|]; auto.
      assert (E : Bool.eqb v (bools D k) = false) by (apply eqb_false_iff; congruence). rewrite E. auto.
  Qed.
End Final.

Lemma load_paths : forall env cwd file content c,
  has_prefix !"/" (user_cache_dir env) = true -> has_prefix !"/" cwd = true -> file <> [] ->
  LoadConfig cwd file content (NewDefaultConfig env) = Ok c ->
  (forall k v, is_path k -> given_strings content k = Some v -> strings c k = resolved (path_dir (resolved cwd file)) v) /\
  (forall v, given_lists content FontFiles = Some v -> (forall f, In f v -> f <> [] /\ has_prefix !"/" f = false) ->
     lists c FontFiles = map (resolved (path_dir (resolved cwd file))) v).
Proof.
  intros env cwd file content c U A N H. destruct (load_spec env U cwd file content c A N H) as (S & L & _).
  unfold config_dir in *. rewrite resolved_abs_path in *. split.
  - intros k v I E. rewrite S, E. destruct I as [->|[->|[->| ->]]]; reflexivity.
  - intros v E F. rewrite L, E. cbn [file_list_meaning]. apply map_ext_in. intros f Hf. apply F in Hf as [Nf Rf].
    unfold resolved at 2. destruct f; [congruence|]. rewrite Rf. auto.
Qed.

Lemma load_font_below : forall env cwd file content c v,
  has_prefix !"/" (user_cache_dir env) = true -> has_prefix !"/" cwd = true -> file <> [] ->
  LoadConfig cwd file content (NewDefaultConfig env) = Ok c ->
  given_lists content FontFiles = Some v ->
  lists c FontFiles = map (fun f => path_join [path_dir (resolved cwd file); f]) v.
Proof.
  intros env cwd file content c v U A N H E. destruct (load_spec env U cwd file content c A N H) as (S & L & _).
  unfold config_dir in *. rewrite resolved_abs_path in *. rewrite L, E. reflexivity.
Qed.

Lemma load_executable : forall env cwd file content c v,
  has_prefix !"/" (user_cache_dir env) = true -> has_prefix !"/" cwd = true -> file <> [] ->
  LoadConfig cwd file content (NewDefaultConfig env) = Ok c ->
  given_strings content PandocExecutable = Some v -> strings c PandocExecutable = v.
Proof.
  intros env cwd file content c v U A N H E. destruct (load_spec env U cwd file content c A N H) as (S & _).
  rewrite S, E. reflexivity.
Qed.

Lemma cli_path_project : forall env cwd pd cf project cli c k v,
  usual_paths env cwd pd cf -> project_config env cwd pd cf project cli = Ok c ->
  is_path k -> given_strings cli k = Some v -> v <> [] -> has_prefix !"/" v = false ->
  strings c k = path_join [pd; v].
Proof.
  intros env cwd pd cf project cli c k v U H I E N R.
  rewrite (project_strings env cwd pd cf project cli c U H k), E. unfold merged_string.
  assert (M : meaning pd k v = path_join [pd; v]).
  { assert (X : resolved pd v = path_join [pd; v]). { unfold resolved. destruct v; [congruence|]. rewrite R; auto. }
    destruct I as [->|[->|[->| ->]]]; exact X. }
  assert (DS := default_stable env (proj1 (proj2 (proj2 U)))). destruct DS as [DS _]. specialize (DS k I).
  assert (F : str_eqb v (strings (NewDefaultConfig env) k) = false).
  { apply str_eqb_neq. intros ->. destruct DS as [X|X]; [congruence|]. unfold path_is_abs in X. congruence. }
  rewrite F. exact M.
Qed.

Lemma effective_paths_absolute : forall env cwd pd cf project cli c k,
  usual_paths env cwd pd cf -> project_config env cwd pd cf project cli = Ok c -> is_path k ->
  strings c k = [] \/ has_prefix !"/" (strings c k) = true.
Proof.
  intros env cwd pd cf project cli c k U H I. unfold project_config in H.
  apply bind_ok in H as (c0 & H0 & H). apply bind_ok in H as (c1 & H1 & H2).
  destruct (initial_spec env cwd pd cf c0 U H0) as (_ & _ & _ & _ & St). destruct U as (A & B & C & _).
  assert (S1 := merge_stable env pd c0 project c1 B St H1).
  assert (S2 := merge_stable env pd c1 cli c B S1 H2). apply S2; auto.
Qed.
