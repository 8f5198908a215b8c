(** * Proofs about the cache model *)

From Coq Require Import Ascii String.
From Coq Require Import List Arith NArith ZArith Bool Lia Permutation.
From Verif Require Import GoStr GoStrFacts UtilModel UtilSpec UtilProofs CacheModel CacheSpec.
Import ListNotations.
Local Open Scope list_scope.

(** ** Program logic *)

Fixpoint safe {A} (fl : bool) (I : world -> Prop) (Q : A -> world -> Prop) (p : prog A) (w : world) : Prop :=
  I w /\
  match p with
  | Ret a => Q a w
  | Call c k => forall r w', sys_step fl w c r w' -> safe fl I Q (k r) w'
  end.

Lemma safe_inv : forall {A} fl I Q (p : prog A) w, safe fl I Q p w -> I w.
Proof. intros A fl I Q [a|c k] w H; apply H. Qed.

Lemma safe_steps : forall {A} fl I Q (p : prog A) w p' w',
  steps fl p w p' w' -> safe fl I Q p w -> safe fl I Q p' w'.
Proof. intros A fl I Q p w p' w' H; induction H; intros S; auto. apply IHsteps. apply S; auto. Qed.

Lemma safe_bind : forall {A C} fl I (Q : C -> world -> Prop) (p : prog A) (f : A -> prog C) w,
  safe fl I (fun a w => safe fl I Q (f a) w) p w -> safe fl I Q (pbind p f) w.
Proof.
  intros A C fl I Q p f; induction p as [a|c k IH]; intros w H; simpl in *.
  - destruct H; auto.
  - destruct H as [HI H]; split; auto.
Qed.

Lemma safe_mono : forall {A} fl (I I' : world -> Prop) (Q Q' : A -> world -> Prop) (p : prog A) w,
  (forall w, I w -> I' w) -> (forall a w, I w -> Q a w -> Q' a w) -> safe fl I Q p w -> safe fl I' Q' p w.
Proof.
  intros A fl I I' Q Q' p; induction p as [a|c k IH]; intros w HI HQ H; simpl in *; destruct H as [H1 H2]; split; auto.
Qed.

(** ** Lookup, delete, update *)

Arguments lookup : simpl never.
Arguments sys_step : simpl never.

Lemma lookup_some : forall p fs f, lookup p fs = Some f -> In f fs /\ f_path f = p.
Proof.
  intros p fs f H; unfold lookup in H. apply find_some in H as [A B]. split; auto.
  destruct (path_eq_dec (f_path f) p); auto; discriminate.
Qed.

Lemma lookup_none : forall p fs, lookup p fs = None <-> ~ In p (map f_path fs).
Proof.
  intros p fs; unfold lookup; split.
  - intros H K. apply in_map_iff in K as (f & E & Hf). pose proof (find_none _ _ H f Hf) as N. simpl in N.
    destruct (path_eq_dec (f_path f) p); [discriminate|contradiction].
  - intros H. destruct (find _ fs) eqn:E; auto. apply find_some in E as [A B].
    destruct (path_eq_dec (f_path f) p); [|discriminate]. exfalso; apply H. subst; apply in_map; auto.
Qed.

Lemma lookup_cons : forall p f fs, lookup p (f :: fs) = if path_eq_dec (f_path f) p then Some f else lookup p fs.
Proof. intros; unfold lookup; simpl. destruct (path_eq_dec (f_path f) p); auto. Qed.

Lemma lookup_delete_eq : forall p fs, lookup p (delete p fs) = None.
Proof.
  intros p fs; apply lookup_none. intros H. apply in_map_iff in H as (f & E & Hf). apply filter_In in Hf as [_ Hf].
  destruct (path_eq_dec (f_path f) p); [discriminate|contradiction].
Qed.

Lemma lookup_delete_neq : forall p q fs, p <> q -> lookup p (delete q fs) = lookup p fs.
Proof.
  intros p q fs N; induction fs as [|f fs IH]; auto. simpl. destruct (path_eq_dec (f_path f) q).
  - rewrite IH, lookup_cons. destruct (path_eq_dec (f_path f) p); auto. congruence.
  - rewrite !lookup_cons, IH; auto.
Qed.

Lemma delete_In : forall p fs f, In f (delete p fs) <-> In f fs /\ f_path f <> p.
Proof. intros; unfold delete; rewrite filter_In. destruct (path_eq_dec (f_path f) p); split; intros [A B]; auto; try discriminate; contradiction. Qed.

Lemma delete_absent : forall p fs, lookup p fs = None -> delete p fs = fs.
Proof.
  intros p fs; induction fs as [|f fs IH]; auto. rewrite lookup_cons. simpl.
  destruct (path_eq_dec (f_path f) p); [discriminate|]. intros; f_equal; auto.
Qed.

Lemma lookup_update : forall p q g fs, (forall f, f_path (g f) = f_path f) ->
  lookup p (update q g fs) = option_map (fun f => if path_eq_dec p q then g f else f) (lookup p fs).
Proof.
  intros p q g fs H; induction fs as [|f fs IH]; auto. simpl. rewrite !lookup_cons.
  destruct (path_eq_dec (f_path f) q) as [E|E].
  - rewrite H. destruct (path_eq_dec (f_path f) p) as [F|F]; [|auto].
    simpl. destruct (path_eq_dec p q); auto; congruence.
  - destruct (path_eq_dec (f_path f) p) as [F|F]; [|auto]. simpl. destruct (path_eq_dec p q); auto; congruence.
Qed.

Lemma map_path_update : forall q g fs, (forall f, f_path (g f) = f_path f) -> map f_path (update q g fs) = map f_path fs.
Proof. intros q g fs H; induction fs as [|f fs IH]; simpl; auto. destruct (path_eq_dec (f_path f) q); rewrite IH; try rewrite H; auto. Qed.

Lemma NoDup_delete : forall p fs, NoDup (map f_path fs) -> NoDup (map f_path (delete p fs)).
Proof.
  intros p fs; induction fs as [|f fs IH]; simpl; intros H; auto. inversion H; subst.
  destruct (path_eq_dec (f_path f) p); auto. simpl; constructor; auto.
  intros K. apply in_map_iff in K as (x & E & Hx). apply delete_In in Hx as [Hx _]. apply H2. rewrite <- E; apply in_map; auto.
Qed.

Lemma not_in_delete : forall p fs, ~ In p (map f_path (delete p fs)).
Proof. intros p fs; apply lookup_none, lookup_delete_eq. Qed.

Lemma lookup_In : forall fs f, NoDup (map f_path fs) -> In f fs -> lookup (f_path f) fs = Some f.
Proof.
  induction fs as [|g fs IH]; intros f N H; simpl in H; [contradiction|]. rewrite lookup_cons. simpl in N. inversion N; subst.
  destruct H as [->|H].
  - destruct (path_eq_dec (f_path f) (f_path f)); congruence.
  - destruct (path_eq_dec (f_path g) (f_path f)) as [E|E]; auto.
    exfalso; apply H2. rewrite E; apply in_map; auto.
Qed.

(** ** Sizes *)

Definition tsum (keep : path -> bool) (fs : list file) : Z :=
  total_size (filter (fun f => keep (f_path f)) fs).

Lemma total_size_nonneg : forall fs, (0 <= total_size fs)%Z.
Proof. induction fs; simpl; [lia|]. unfold f_size. lia. Qed.

Lemma tsum_nonneg : forall k fs, (0 <= tsum k fs)%Z.
Proof. intros; apply total_size_nonneg. Qed.

Lemma tsum_split : forall k fs, total_size fs = (tsum k fs + tsum (fun p => negb (k p)) fs)%Z.
Proof.
  intros k fs; unfold tsum; induction fs as [|f fs IH]; simpl; auto.
  destruct (k (f_path f)); simpl; lia.
Qed.

Lemma tsum_cons : forall k f fs, tsum k (f :: fs) = ((if k (f_path f) then f_size f else 0) + tsum k fs)%Z.
Proof. intros; unfold tsum; simpl. destruct (k (f_path f)); simpl; lia. Qed.

Lemma tsum_delete : forall k fs f, NoDup (map f_path fs) -> In f fs ->
  tsum k (delete (f_path f) fs) = (tsum k fs - (if k (f_path f) then f_size f else 0))%Z.
Proof.
  intros k fs f; induction fs as [|g fs IH]; intros N H; simpl in H; [contradiction|].
  simpl in N; inversion N; subst. simpl delete. destruct H as [->|H].
  - destruct (path_eq_dec (f_path f) (f_path f)); [|congruence].
    rewrite delete_absent by (apply lookup_none; auto). rewrite tsum_cons; lia.
  - destruct (path_eq_dec (f_path g) (f_path f)) as [E|E].
    + exfalso; apply H2. rewrite E; apply in_map; auto.
    + rewrite !tsum_cons, IH by auto. lia.
Qed.

Lemma tsum_update_other : forall k q g fs, (forall f, f_path (g f) = f_path f) -> k q = false ->
  tsum k (update q g fs) = tsum k fs.
Proof.
  intros k q g fs H K; induction fs as [|f fs IH]; auto. simpl update. rewrite !tsum_cons, IH.
  destruct (path_eq_dec (f_path f) q) as [E|E]; auto. rewrite H, E, K; auto.
Qed.

Lemma tsum_update_same_size : forall k q g fs, (forall f, f_path (g f) = f_path f) -> (forall f, f_data (g f) = f_data f) ->
  tsum k (update q g fs) = tsum k fs.
Proof.
  intros k q g fs H K; induction fs as [|f fs IH]; auto. simpl update. rewrite !tsum_cons, IH.
  destruct (path_eq_dec (f_path f) q) as [E|E]; auto. unfold f_size. rewrite H, K; auto.
Qed.

(** ** Searching *)

Lemma FindLargest_spec : forall walk cur f, (forall c, cur = Some c -> in_tmp (f_path c) = false) ->
  FindLargestFile_walk cur walk = Some f ->
  (cur = Some f \/ In f walk) /\ in_tmp (f_path f) = false /\
  (forall c, cur = Some c -> (f_size c <= f_size f)%Z) /\
  (forall g, In g walk -> in_tmp (f_path g) = false -> (f_size g <= f_size f)%Z).
Proof.
  induction walk as [|g walk IH]; intros cur f HC H; simpl in H.
  - subst cur. split; auto. split; auto. split; [intros c E; inversion E; lia|intros ? []].
  - destruct (in_tmp (f_path g)) eqn:T.
    + destruct (IH cur f HC H) as (A & B & C & D). split; [simpl; tauto|]. split; auto. split; auto.
      intros x [->|Hx] Tx; [congruence|auto].
    + destruct cur as [c|].
      * destruct (f_size c <? f_size g)%Z eqn:L.
        -- apply Z.ltb_lt in L. destruct (IH (Some g) f) as (A & B & C & D); auto.
           { intros c0 E; inversion E; subst; auto. }
           split; [destruct A as [A|A]; [inversion A; subst; right; left; auto|right; right; auto]|].
           split; auto. pose proof (C g eq_refl). split; [intros x E; inversion E; subst; lia|].
           intros x [->|Hx] Tx; auto.
        -- apply Z.ltb_ge in L. destruct (IH (Some c) f) as (A & B & C & D); auto.
           split; [destruct A; [left; auto|right; right; auto]|]. split; auto. split; auto.
           intros x [->|Hx] Tx; auto. pose proof (C c eq_refl). lia.
      * destruct (IH (Some g) f) as (A & B & C & D); auto.
        { intros c0 E; inversion E; subst; auto. }
        split; [destruct A as [A|A]; [inversion A; subst; right; left; auto|right; right; auto]|].
        split; auto. split; [intros; discriminate|]. intros x [->|Hx] Tx; auto.
Qed.

Lemma FindLargest_none : forall walk cur, FindLargestFile_walk cur walk = None ->
  cur = None /\ forall g, In g walk -> in_tmp (f_path g) = true.
Proof.
  induction walk as [|g walk IH]; intros cur H; simpl in H.
  - split; [auto|intros ? []].
  - destruct (in_tmp (f_path g)) eqn:T.
    + destruct (IH _ H) as [A B]; split; auto. intros x [->|Hx]; auto.
    + destruct cur as [c|]; [destruct (f_size c <? f_size g)%Z|]; apply IH in H as [H _]; discriminate.
Qed.

Lemma FindLru_spec : forall walk cur f, (forall c, cur = Some c -> in_tmp (f_path c) = false) ->
  FindLruFile_walk cur walk = Some f ->
  (cur = Some f \/ In f walk) /\ in_tmp (f_path f) = false /\
  (forall c, cur = Some c -> (f_mtime f <= f_mtime c)%Z) /\
  (forall g, In g walk -> in_tmp (f_path g) = false -> (f_mtime f <= f_mtime g)%Z).
Proof.
  induction walk as [|g walk IH]; intros cur f HC H; simpl in H.
  - subst cur. split; auto. split; auto. split; [intros c E; inversion E; lia|intros ? []].
  - destruct (in_tmp (f_path g)) eqn:T.
    + destruct (IH cur f HC H) as (A & B & C & D). split; [simpl; tauto|]. split; auto. split; auto.
      intros x [->|Hx] Tx; [congruence|auto].
    + destruct cur as [c|].
      * destruct (f_mtime g <? f_mtime c)%Z eqn:L.
        -- apply Z.ltb_lt in L. destruct (IH (Some g) f) as (A & B & C & D); auto.
           { intros c0 E; inversion E; subst; auto. }
           split; [destruct A as [A|A]; [inversion A; subst; right; left; auto|right; right; auto]|].
           split; auto. pose proof (C g eq_refl). split; [intros x E; inversion E; subst; lia|].
           intros x [->|Hx] Tx; auto.
        -- apply Z.ltb_ge in L. destruct (IH (Some c) f) as (A & B & C & D); auto.
           split; [destruct A; [left; auto|right; right; auto]|]. split; auto. split; auto.
           intros x [->|Hx] Tx; auto. pose proof (C c eq_refl). lia.
      * destruct (IH (Some g) f) as (A & B & C & D); auto.
        { intros c0 E; inversion E; subst; auto. }
        split; [destruct A as [A|A]; [inversion A; subst; right; left; auto|right; right; auto]|].
        split; auto. split; [intros; discriminate|]. intros x [->|Hx] Tx; auto.
Qed.

Lemma FindLru_none : forall walk cur, FindLruFile_walk cur walk = None ->
  cur = None /\ forall g, In g walk -> in_tmp (f_path g) = true.
Proof.
  induction walk as [|g walk IH]; intros cur H; simpl in H.
  - split; [auto|intros ? []].
  - destruct (in_tmp (f_path g)) eqn:T.
    + destruct (IH _ H) as [A B]; split; auto. intros x [->|Hx]; auto.
    + destruct cur as [c|]; [destruct (f_mtime g <? f_mtime c)%Z|]; apply IH in H as [H _]; discriminate.
Qed.

(** ** Paths *)

Lemma in_tmp_temp : forall n, in_tmp [TempDirName; n] = true.
Proof. reflexivity. Qed.

Lemma in_tmp_cache_path : forall folder n, In folder cache_folders -> in_tmp (cache_path folder n) = false.
Proof.
  intros folder n H. unfold in_tmp, cache_path. simpl. rewrite orb_false_r. apply str_eqb_neq.
  repeat (destruct H as [<-|H]; [discriminate|]). contradiction.
Qed.

(** ** Crash atomicity *)

(** What a crash may leave behind outside of .tmp: old content, nothing, or the complete new file at the target. *)
Definition atomic_from (w0 : world) (target : path) (data : str) (w : world) : Prop :=
  forall p, in_tmp p = false ->
    content w p = content w0 p \/ content w p = None \/ (p = target /\ content w p = Some data).

(** Before the rename: nothing new at the target. *)
Definition shrunk_from (w0 : world) (w : world) : Prop :=
  forall p, in_tmp p = false -> content w p = content w0 p \/ content w p = None.

Lemma shrunk_atomic : forall w0 t d w, shrunk_from w0 w -> atomic_from w0 t d w.
Proof. intros w0 t d w H p T; destruct (H p T); auto. Qed.

Lemma content_files : forall w w' p, files w' = files w -> content w' p = content w p.
Proof. intros w w' p H; unfold content; rewrite H; auto. Qed.

Lemma shrunk_files : forall w0 w w', files w' = files w -> shrunk_from w0 w -> shrunk_from w0 w'.
Proof. intros w0 w w' H S p T; rewrite (content_files w w') by auto; auto. Qed.

Lemma shrunk_delete : forall w0 w w' q, files w' = delete q (files w) -> shrunk_from w0 w -> shrunk_from w0 w'.
Proof.
  intros w0 w w' q H S p T. unfold content at 1 3. rewrite H.
  destruct (path_eq_dec p q) as [->|N].
  - rewrite lookup_delete_eq; auto.
  - rewrite lookup_delete_neq by auto. fold (content w p). auto.
Qed.

Definition has_data (tmp : path) (d : str) (w : world) : Prop := content w tmp = Some d.

Lemma content_update : forall w w' q g p, (forall f, f_path (g f) = f_path f) ->
  files w' = update q g (files w) -> p <> q -> content w' p = content w p.
Proof.
  intros w w' q g p H E N. unfold content. rewrite E, lookup_update by auto.
  destruct (lookup p (files w)); simpl; auto. destruct (path_eq_dec p q); auto; contradiction.
Qed.

Lemma shrunk_update_tmp : forall w0 w w' q g, (forall f, f_path (g f) = f_path f) -> in_tmp q = true ->
  files w' = update q g (files w) -> shrunk_from w0 w -> shrunk_from w0 w'.
Proof.
  intros w0 w w' q g H T E S p Tp. rewrite (content_update w w' q g p); auto. congruence.
Qed.

(** The copied data ends up in the temp file. *)
Lemma Copy_safe : forall fl w0 tmp readOk chunks d w, in_tmp tmp = true ->
  shrunk_from w0 w -> has_data tmp d w ->
  safe fl (shrunk_from w0)
    (fun r w => match r with Ok _ => has_data tmp (d ++ concat chunks) w /\ readOk = true | Panic => False | OutOfFuel => False | Err => fl = true \/ readOk = false end)
    (Copy tmp chunks readOk) w.
Proof.
  intros fl w0 tmp readOk chunks; induction chunks as [|c chunks IH]; intros d w T S H; simpl.
  - split; auto. rewrite app_nil_r. destruct readOk; auto.
  - split; auto. intros r w' St. unfold sys_step in St. destruct St as [_ St].
    destruct r.
    + rewrite app_assoc. apply IH; auto.
      * eapply shrunk_update_tmp; [| |exact St|exact S]; auto.
      * unfold has_data, content in *. rewrite St, lookup_update by auto.
        destruct (lookup tmp (files w)) as [f|]; simpl in *; [|discriminate].
        destruct (path_eq_dec tmp tmp); [|congruence]. simpl. congruence.
    + simpl. destruct St as (F & n & St). split; auto. eapply shrunk_update_tmp; [| |exact St|exact S]; auto.
Qed.

(** Eviction only deletes cached files. *)
Definition tmp_kept (tmp : path) (d : str) (w0 w : world) : Prop := shrunk_from w0 w /\ has_data tmp d w.

Lemma tmp_kept_files : forall tmp d w0 w w', files w' = files w -> tmp_kept tmp d w0 w -> tmp_kept tmp d w0 w'.
Proof.
  intros tmp d w0 w w' H [A B]; split; [eapply shrunk_files; eauto|].
  unfold has_data in *; rewrite (content_files w w'); auto.
Qed.

Lemma tmp_kept_delete : forall tmp d w0 w w' q, q <> tmp ->
  files w' = delete q (files w) -> tmp_kept tmp d w0 w -> tmp_kept tmp d w0 w'.
Proof.
  intros tmp d w0 w w' q N H [A B]; split; [eapply shrunk_delete; eauto|].
  unfold has_data, content in *. rewrite H, lookup_delete_neq; auto.
Qed.

Lemma remove_safe : forall fl w0 tmp d p size cs w, in_tmp tmp = true -> in_tmp p = false ->
  tmp_kept tmp d w0 w ->
  safe fl (tmp_kept tmp d w0) (fun _ _ => True)
    (Call (SRemove p) (fun ok => Ret (if ok : bool then Ok (cs - size)%Z else Err))) w.
Proof.
  intros fl w0 tmp d p size cs w T Tp S. split; auto.
  intros ok w' St. unfold sys_step in St. destruct St as [_ St]. destruct ok; destruct St as [L St]; split; auto.
  - eapply tmp_kept_delete; [|exact St|exact S]. congruence.
  - eapply tmp_kept_files; [exact St|exact S].
Qed.

Lemma evict_one_safe : forall fl cfg w0 tmp d cs w, in_tmp tmp = true -> tmp_kept tmp d w0 w ->
  safe fl (tmp_kept tmp d w0) (fun _ _ => True)
    (match CacheEvictionStrategy cfg with
     | StrategyLargest => deleteLargestFileFromCache cs
     | StrategyLru => deleteLruFileFromCache cs
     | StrategyNone => Ret Panic
     end) w.
Proof.
  intros fl cfg w0 tmp d cs w T S. destruct (CacheEvictionStrategy cfg).
  - simpl; auto.
  - split; auto. intros r w' St. unfold sys_step in St. destruct St as (E & _ & St).
    assert (S' : tmp_kept tmp d w0 w') by (eapply tmp_kept_files; eauto).
    destruct St as [[-> _]|(walk & P & ->)]; [simpl; auto|].
    destruct (FindLargestFile_walk None walk) as [f|] eqn:K; [|simpl; auto].
    apply FindLargest_spec in K as (A & B & _); [|intros; discriminate].
    apply remove_safe; auto.
  - split; auto. intros r w' St. unfold sys_step in St. destruct St as (E & _ & St).
    assert (S' : tmp_kept tmp d w0 w') by (eapply tmp_kept_files; eauto).
    destruct St as [[-> _]|(walk & P & ->)]; [simpl; auto|].
    destruct (FindLruFile_walk None walk) as [f|] eqn:K.
    + apply FindLru_spec in K as (A & B & _); [|intros; discriminate].
      apply remove_safe; auto.
    + apply remove_safe; auto.
Qed.

Lemma evict_loop_safe : forall fl cfg w0 tmp d fuel net cs w, in_tmp tmp = true -> tmp_kept tmp d w0 w ->
  safe fl (tmp_kept tmp d w0) (fun _ _ => True) (evict_loop cfg fuel net cs) w.
Proof.
  intros fl cfg w0 tmp d fuel; induction fuel as [|fuel IH]; intros net cs w T S; simpl.
  - destruct (CacheMaxSize cfg <=? cs + net)%Z; simpl; auto.
  - destruct (CacheMaxSize cfg <=? cs + net)%Z; [|simpl; auto].
    apply safe_bind. eapply safe_mono; [| |apply evict_one_safe; eauto]; auto.
    intros [c| | |] w1 I _; simpl; auto.
Qed.

Lemma CacheToFile_evict_safe : forall fl cfg w0 tmp d fuel folder name w, in_tmp tmp = true -> tmp_kept tmp d w0 w ->
  safe fl (tmp_kept tmp d w0) (fun _ _ => True) (CacheToFile_evict cfg fuel folder name tmp) w.
Proof.
  intros fl cfg w0 tmp d fuel folder name w T S. unfold CacheToFile_evict.
  assert (G : safe fl (tmp_kept tmp d w0) (fun _ _ => True)
    (Call SDirSize (fun r => match r with
      | None => Ret Err
      | Some cacheSize => Call (SFileSize tmp) (fun r => match r with
          | None => Ret Err
          | Some size => deleteFilesFromCacheIfNeeded cfg fuel folder name size cacheSize end) end)) w).
  { split; auto. intros [cs|] w1 St; unfold sys_step in St; destruct St as (E & _ & _);
      (assert (S1 : tmp_kept tmp d w0 w1) by (eapply tmp_kept_files; eauto)); [|simpl; auto].
    split; auto. intros [sz|] w2 St2; unfold sys_step in St2; destruct St2 as (E2 & _ & _);
      (assert (S2 : tmp_kept tmp d w0 w2) by (eapply tmp_kept_files; eauto)); [|simpl; auto].
    split; auto. intros r w3 St3; unfold sys_step in St3; destruct St3 as (E3 & _ & _).
    apply evict_loop_safe; auto. eapply tmp_kept_files; eauto. }
  destruct (CacheEvictionStrategy cfg); auto. simpl; auto.
Qed.

Lemma shrunk_trans : forall a b c, shrunk_from a b -> shrunk_from b c -> shrunk_from a c.
Proof.
  intros a b c H K p T. destruct (K p T) as [E|E]; auto. rewrite E. apply H; auto.
Qed.

(** Renaming publishes exactly the copied data. *)
Lemma CacheToFile_move_safe : forall fl w0 folder name tmp d w,
  in_tmp tmp = true -> in_tmp (cache_path folder name) = false -> tmp_kept tmp d w0 w ->
  safe fl (atomic_from w0 (cache_path folder name) d)
    (fun r w => match r with
       | Ok _ => content w (cache_path folder name) = Some d
       | Err => shrunk_from w0 w
       | _ => False end)
    (CacheToFile_move folder name tmp) w.
Proof.
  intros fl w0 folder name tmp d w T Tt S. split; [apply shrunk_atomic, S|].
  intros ok w1 St. unfold sys_step in St. destruct St as (E & _ & _).
  assert (S1 : tmp_kept tmp d w0 w1) by (eapply tmp_kept_files; eauto).
  destruct ok; [|simpl; split; [apply shrunk_atomic, S1|apply S1]].
  split; [apply shrunk_atomic, S1|].
  intros ok w2 St2. unfold sys_step in St2. destruct St2 as (_ & St2).
  destruct S1 as [Sh Hd]. destruct ok.
  - destruct St2 as (f & Lf & F). assert (f_data f = d).
    { unfold has_data, content in Hd. rewrite Lf in Hd. simpl in Hd; congruence. }
    subst d.
    assert (C : content w2 (cache_path folder name) = Some (f_data f)).
    { unfold content. rewrite F, lookup_cons. simpl f_path.
      destruct (path_eq_dec (cache_path folder name) (cache_path folder name)); [auto|congruence]. }
    simpl; split; auto. intros p Tp.
    destruct (path_eq_dec p (cache_path folder name)) as [->|N]; auto.
    assert (X : content w2 p = content w1 p).
    { unfold content. rewrite F, lookup_cons. simpl f_path.
      destruct (path_eq_dec (cache_path folder name) p); [congruence|].
      rewrite !lookup_delete_neq; auto; congruence. }
    rewrite X. destruct (Sh p Tp); auto.
  - destruct St2 as [_ F]. assert (shrunk_from w0 w2) by (eapply shrunk_files; eauto).
    simpl; split; auto. apply shrunk_atomic; auto.
Qed.

Definition ok_like (w0 : world) (target : path) (data : str) (r : res unit) (w : world) : Prop :=
  match r with
  | Ok _ => content w target = Some data
  | _ => shrunk_from w0 w
  end.

Lemma then_ok_safe : forall fl I (Q : res unit -> world -> Prop) p q w,
  safe fl I (fun r w => match r with Ok _ => safe fl I Q q w | Err => Q Err w | Panic => Q Panic w | OutOfFuel => Q OutOfFuel w end) p w ->
  safe fl I Q (then_ok p q) w.
Proof.
  intros fl I Q p q w H. unfold then_ok. apply safe_bind.
  eapply safe_mono; [| |exact H]; auto. intros [u| | |] w1 HI K; simpl; auto.
Qed.

Lemma CacheToFile_safe : forall fl cfg fuel folder name chunks readOk w,
  In folder cache_folders ->
  safe fl (atomic_from w (cache_path folder name) (concat chunks))
    (fun r w' => ok_like w (cache_path folder name) (concat chunks) r w' /\ (readOk = false -> r <> Ok tt))
    (CacheToFile cfg fuel folder name chunks readOk) w.
Proof.
  intros fl cfg fuel folder name chunks readOk w Hf.
  set (target := cache_path folder name).
  assert (Tt : in_tmp target = false) by (apply in_tmp_cache_path; auto).
  assert (S0 : shrunk_from w w) by (intros p _; auto).
  split; [apply shrunk_atomic; auto|].
  intros r w1 St. unfold sys_step in St. destruct St as (E & _ & _).
  assert (S1 : shrunk_from w w1) by (eapply shrunk_files; eauto).
  assert (G : safe fl (atomic_from w target (concat chunks))
    (fun r w' => ok_like w target (concat chunks) r w' /\ (readOk = false -> r <> Ok tt))
    (Call (SCreateTemp (SanitizeFilename name)) (fun r =>
        match r with
        | None => Ret Err
        | Some tmp =>
          pbind
            (then_ok (Copy tmp chunks readOk)
               (then_ok (CacheToFile_evict cfg fuel folder name tmp)
                  (CacheToFile_move folder name tmp)))
            (fun res => Call (SRemove tmp) (fun _ => Call (SClose tmp) (fun _ => Ret res)))
        end)) w1).
  2:{ destruct r; auto. simpl. repeat split; auto; [apply shrunk_atomic; auto|discriminate]. }
  split; [apply shrunk_atomic; auto|].
  intros [tmp|] w2 St2; unfold sys_step in St2; destruct St2 as (_ & St2).
  2:{ destruct St2 as [_ F]. assert (shrunk_from w w2) by (eapply shrunk_files; eauto).
      simpl; repeat split; auto; [apply shrunk_atomic; auto|discriminate]. }
  destruct St2 as (rnd & Ep & L & F).
  assert (T : in_tmp tmp = true) by (subst tmp; apply in_tmp_temp).
  assert (S2 : shrunk_from w w2).
  { intros p Tp. unfold content at 1 3. rewrite F, lookup_cons. simpl f_path.
    destruct (path_eq_dec tmp p); [congruence|]. apply S1; auto. }
  assert (D2 : has_data tmp [] w2).
  { unfold has_data, content. rewrite F, lookup_cons. simpl f_path. destruct (path_eq_dec tmp tmp); [auto|congruence]. }
  apply safe_bind.
  set (Qb := fun r w' => ok_like w target (concat chunks) r w' /\ (readOk = false -> r <> Ok tt)).
  assert (B : safe fl (atomic_from w target (concat chunks)) Qb
            (then_ok (Copy tmp chunks readOk) (then_ok (CacheToFile_evict cfg fuel folder name tmp) (CacheToFile_move folder name tmp))) w2).
  { apply then_ok_safe.
    eapply safe_mono; [| |apply (Copy_safe fl w tmp readOk chunks [] w2); auto].
    { intros; apply shrunk_atomic; auto. }
    intros r3 w3 I3 K. destruct r3 as [u| | |]; try contradiction.
    2:{ unfold Qb, ok_like; split; auto; discriminate. }
    destruct K as [D3 RO]. simpl in D3.
    apply then_ok_safe.
    eapply safe_mono; [| |apply (CacheToFile_evict_safe fl cfg w tmp (concat chunks) fuel folder name w3); auto; split; auto].
    { intros w4 [A _]; apply shrunk_atomic; auto. }
    intros r4 w4 I4 _. destruct r4 as [u4| | |]; try (unfold Qb, ok_like; split; [apply I4|discriminate]).
    eapply safe_mono; [| |apply (CacheToFile_move_safe fl w folder name tmp (concat chunks) w4); auto]; auto.
    intros r5 w5 I5 K5. unfold Qb, ok_like. split; [destruct r5; auto; contradiction|congruence]. }
  eapply safe_mono; [| |exact B]; auto.
  intros r6 w6 I6 [O6 R6].
  assert (Step : forall w7, (files w7 = files w6 \/ files w7 = delete tmp (files w6)) ->
            atomic_from w target (concat chunks) w7 /\ Qb r6 w7).
  { intros w7 F7. assert (C7 : forall p, in_tmp p = false -> content w7 p = content w6 p).
    { intros p Tp. unfold content. destruct F7 as [-> | ->]; auto. rewrite lookup_delete_neq; auto; congruence. }
    split.
    - intros p Tp. rewrite C7 by auto. apply I6; auto.
    - split; auto. unfold ok_like in *. destruct r6; [rewrite C7; auto| | |];
      intros p Tp; rewrite C7 by auto; apply O6; auto. }
  split; auto. intros ok w7 St7. unfold sys_step in St7. destruct St7 as [_ St7].
  assert (F7 : files w7 = files w6 \/ files w7 = delete tmp (files w6)).
  { destruct ok; destruct St7; auto. }
  split; [apply Step; auto|].
  intros ok8 w8 St8. unfold sys_step in St8. destruct St8 as (F8 & _ & _).
  simpl. rewrite <- F8 in F7. apply Step; auto.
Qed.

(** ** The size of the cache *)

Definition noT (p : path) : bool := negb (in_tmp p).

Lemma cache_size_tsum : forall w, cache_size w = tsum noT (files w).
Proof. reflexivity. Qed.

Lemma total_split : forall fs, total_size fs = (tsum noT fs + tsum in_tmp fs)%Z.
Proof.
  intros fs. rewrite (tsum_split noT). f_equal. unfold tsum. f_equal. apply filter_ext. intros f; unfold noT. apply negb_involutive.
Qed.

Lemma tsum_ge : forall k fs f, In f fs -> k (f_path f) = true -> (f_size f <= tsum k fs)%Z.
Proof.
  intros k fs f; induction fs as [|g fs IH]; intros H K; simpl in H; [contradiction|]. rewrite tsum_cons.
  destruct H as [->|H].
  - rewrite K. pose proof (tsum_nonneg k fs). lia.
  - specialize (IH H K). unfold f_size at 2. destruct (k (f_path g)); lia.
Qed.

Definition size_of (fs : list file) (p : path) : Z :=
  match lookup p fs with Some f => f_size f | None => 0%Z end.

Lemma size_of_nonneg : forall fs p, (0 <= size_of fs p)%Z.
Proof. intros fs p; unfold size_of; destruct (lookup p fs); [unfold f_size|]; lia. Qed.

Lemma tsum_delete_path : forall k fs p, NoDup (map f_path fs) -> k p = true ->
  tsum k (delete p fs) = (tsum k fs - size_of fs p)%Z.
Proof.
  intros k fs p N K. unfold size_of. destruct (lookup p fs) as [f|] eqn:L.
  - apply lookup_some in L as [H <-]. rewrite tsum_delete by auto. rewrite K; auto.
  - rewrite delete_absent by auto. lia.
Qed.

Lemma tsum_delete_other : forall k fs p, NoDup (map f_path fs) -> k p = false ->
  tsum k (delete p fs) = tsum k fs.
Proof.
  intros k fs p N K. destruct (lookup p fs) as [f|] eqn:L.
  - apply lookup_some in L as [H <-]. rewrite tsum_delete by auto. rewrite K; lia.
  - rewrite delete_absent by auto. auto.
Qed.

Section SizeInvariant.
  Variable max : Z.
  Definition fits (w : world) : Prop := wf w /\ (tsum noT (files w) < max)%Z.

  Lemma fits_files : forall w w', files w' = files w -> fits w -> fits w'.
  Proof. intros w w' E [A B]; split; [unfold wf|]; rewrite E; auto. Qed.

  Lemma fits_update_tmp : forall w w' q g, (forall f, f_path (g f) = f_path f) -> in_tmp q = true ->
    files w' = update q g (files w) -> fits w -> fits w'.
  Proof.
    intros w w' q g H T E [A B]; split; [unfold wf; rewrite E, map_path_update; auto|].
    rewrite E, tsum_update_other; auto. unfold noT; rewrite T; auto.
  Qed.

  Lemma fits_delete : forall w w' q, files w' = delete q (files w) -> fits w -> fits w'.
  Proof.
    intros w w' q E [A B]; split; [unfold wf; rewrite E; apply NoDup_delete; auto|]. rewrite E.
    destruct (noT q) eqn:K.
    - rewrite tsum_delete_path by auto. pose proof (size_of_nonneg (files w) q). lia.
    - rewrite tsum_delete_other; auto.
  Qed.

  (** State of the eviction loop *)
  Variable S0 : Z.
  Variables target tmp : path.
  Variable d : str.
  Hypothesis Htarget : in_tmp target = false.
  Hypothesis Htmp : in_tmp tmp = true.
  Hypothesis HS0 : (S0 < max)%Z.
  Let T : Z := Z.of_nat (List.length d).

  Definition net_ok (net : Z) (w : world) : Prop :=
    net = T \/
    exists E, net = (T - E)%Z /\
      (size_of (files w) target = E /\ lookup target (files w) <> None \/
       lookup target (files w) = None /\ (tsum noT (files w) + E <= S0)%Z).

  Definition loop_inv (w : world) : Prop :=
    wf w /\ (tsum noT (files w) <= S0)%Z /\ has_data tmp d w.

  Definition ready (w : world) : Prop :=
    loop_inv w /\ (tsum noT (files w) - size_of (files w) target + T < max)%Z.

  Lemma loop_inv_fits : forall w, loop_inv w -> fits w.
  Proof. intros w (A & B & _); split; auto; lia. Qed.

  Lemma loop_inv_files : forall w w', files w' = files w -> loop_inv w -> loop_inv w'.
  Proof. intros w w' E (A & B & C); unfold loop_inv, wf, has_data in *; rewrite (content_files w w') by auto; rewrite E; auto. Qed.

  Lemma net_ok_files : forall net w w', files w' = files w -> net_ok net w -> net_ok net w'.
  Proof. intros net w w' E H; unfold net_ok in *; rewrite E; auto. Qed.

  Lemma exit_ready : forall net w, loop_inv w -> net_ok net w ->
    (total_size (files w) + net < max)%Z -> ready w.
  Proof.
    intros net w (A & B & C) N H. split; [split; [|split]; auto|].
    assert (TT : (T <= tsum in_tmp (files w))%Z).
    { unfold has_data, content in C. destruct (lookup tmp (files w)) as [f|] eqn:L; [|discriminate].
      simpl in C. inversion C as [Ed]. apply lookup_some in L as [L P].
      pose proof (tsum_ge in_tmp (files w) f L) as G. rewrite P in G. specialize (G Htmp). unfold f_size in G. rewrite Ed in G. auto. }
    rewrite total_split in H.
    pose proof (tsum_nonneg noT (files w)). pose proof (size_of_nonneg (files w) target).
    assert (0 <= T)%Z by (unfold T; lia).
    destruct N as [->|(E & -> & [[S K]|[K S]])].
    - lia.
    - lia.
    - unfold size_of at 1. rewrite K. destruct (Z.leb_spec E T); lia.
  Qed.

  Lemma delete_loop_inv : forall w w' p net, in_tmp p = false -> files w' = delete p (files w) ->
    loop_inv w -> net_ok net w -> loop_inv w' /\ net_ok net w'.
  Proof.
    intros w w' p net Tp E (A & B & C) N.
    assert (Kp : noT p = true) by (unfold noT; rewrite Tp; auto).
    assert (Sz : tsum noT (files w') = (tsum noT (files w) - size_of (files w) p)%Z)
      by (rewrite E; apply tsum_delete_path; auto).
    pose proof (size_of_nonneg (files w) p).
    split.
    - split; [unfold wf; rewrite E; apply NoDup_delete; auto|]. split; [lia|].
      unfold has_data, content in *. rewrite E, lookup_delete_neq; auto. congruence.
    - destruct N as [->|(Ex & -> & N)]; [left; auto|]. right. exists Ex; split; auto.
      destruct (path_eq_dec target p) as [<-|D].
      + right. split; [rewrite E; apply lookup_delete_eq|]. destruct N as [[<- _]|[K S]].
        * lia.
        * lia.
      + unfold size_of. rewrite E, lookup_delete_neq by auto. fold (size_of (files w) target).
        destruct N as [N|[K S]]; [left; auto|right; split; auto]. rewrite <- E; lia.
  Qed.

  Variable cfg : cache_config.
  Hypothesis Hmax : CacheMaxSize cfg = max.

  Lemma total_delete : forall w f, wf w -> In f (files w) ->
    total_size (delete (f_path f) (files w)) = (total_size (files w) - f_size f)%Z.
  Proof.
    intros w f W H. assert (X : forall fs, total_size fs = tsum (fun _ => true) fs).
    { intros fs; unfold tsum. f_equal. induction fs; simpl; congruence. }
    rewrite !X. rewrite tsum_delete; auto.
  Qed.

  Lemma remove_size : forall fl net f w, loop_inv w -> net_ok net w -> In f (files w) -> in_tmp (f_path f) = false ->
    safe fl loop_inv (fun r w => match r with Ok cs' => cs' = total_size (files w) /\ net_ok net w | _ => True end)
      (Call (SRemove (f_path f)) (fun ok => Ret (if ok : bool then Ok (total_size (files w) - f_size f)%Z else Err))) w.
  Proof.
    intros fl net f w L N H Tf. split; auto. intros ok w1 St. unfold sys_step in St. destruct St as [_ St].
    destruct ok.
    - destruct St as [_ E]. destruct (delete_loop_inv w w1 (f_path f) net Tf E L N) as [L1 N1].
      split; auto. split; auto. rewrite E. symmetry. apply total_delete; auto. apply L.
    - destruct St as [_ E]. split; auto. eapply loop_inv_files; eauto.
  Qed.

  Lemma evict_one_size : forall fl net w, loop_inv w -> net_ok net w ->
    safe fl loop_inv (fun r w => match r with Ok cs' => cs' = total_size (files w) /\ net_ok net w | _ => True end)
     (match CacheEvictionStrategy cfg with
     | StrategyLargest => deleteLargestFileFromCache (total_size (files w))
     | StrategyLru => deleteLruFileFromCache (total_size (files w))
     | StrategyNone => Ret Panic
     end) w.
  Proof.
    intros fl net w L N. destruct (CacheEvictionStrategy cfg).
    - simpl; auto.
    - split; auto. intros r w1 St. unfold sys_step in St. destruct St as (E & _ & St).
      assert (L1 : loop_inv w1) by (eapply loop_inv_files; eauto).
      assert (N1 : net_ok net w1) by (eapply net_ok_files; eauto).
      destruct St as [[-> _]|(walk & P & ->)]; [simpl; auto|].
      destruct (FindLargestFile_walk None walk) as [f|] eqn:K; [|simpl; auto].
      apply FindLargest_spec in K as ([K|A] & B & _); [discriminate| |intros; discriminate].
      rewrite <- E. apply remove_size; auto. rewrite E. eapply Permutation_in; eauto.
    - split; auto. intros r w1 St. unfold sys_step in St. destruct St as (E & _ & St).
      assert (L1 : loop_inv w1) by (eapply loop_inv_files; eauto).
      assert (N1 : net_ok net w1) by (eapply net_ok_files; eauto).
      destruct St as [[-> _]|(walk & P & ->)]; [simpl; auto|].
      destruct (FindLruFile_walk None walk) as [f|] eqn:K.
      + apply FindLru_spec in K as ([K|A] & B & _); [discriminate| |intros; discriminate].
        rewrite <- E. apply remove_size; auto. rewrite E. eapply Permutation_in; eauto.
      + apply FindLru_none in K as [_ K].
        split; auto. intros ok w2 St2. unfold sys_step in St2. destruct St2 as [_ St2].
        assert (Z : lookup [] (files w1) = None).
        { apply lookup_none. intros Q. apply in_map_iff in Q as (f & Pf & Hf).
          rewrite E in Hf. eapply Permutation_in in Hf; [|apply Permutation_sym; exact P].
          specialize (K f Hf). rewrite Pf in K. discriminate. }
        destruct ok.
        * destruct St2 as [A _]. contradiction.
        * destruct St2 as [_ E2]. split; auto. eapply loop_inv_files; eauto.
  Qed.

  Lemma evict_loop_size : forall fl net fuel w, loop_inv w -> net_ok net w ->
    safe fl loop_inv (fun r w => match r with Ok _ => ready w | _ => True end)
      (evict_loop cfg fuel net (total_size (files w))) w.
  Proof.
    intros fl net fuel; induction fuel as [|fuel IH]; intros w L N; simpl.
    - destruct (CacheMaxSize cfg <=? total_size (files w) + net)%Z eqn:K; [simpl; auto|].
      apply Z.leb_gt in K. split; auto. eapply exit_ready; eauto; lia.
    - destruct (CacheMaxSize cfg <=? total_size (files w) + net)%Z eqn:K.
      + apply safe_bind. eapply safe_mono; [| |apply (evict_one_size fl net w L N)]; auto.
        intros [cs| | |] w1 I1 Q; simpl; auto. destruct Q as [-> N1]. apply IH; auto.
      + apply Z.leb_gt in K. split; auto. eapply exit_ready; eauto; lia.
  Qed.
End SizeInvariant.

(** The whole call keeps the limit. *)
Section SizeOfCall.
  Variable max : Z.
  Variable cfg : cache_config.
  Hypothesis Hmax : CacheMaxSize cfg = max.
  Hypothesis Hstrat : CacheEvictionStrategy cfg <> StrategyNone.

  Lemma Copy_fits : forall fl tmp S0 readOk chunks d w, in_tmp tmp = true ->
    loop_inv S0 tmp d w -> (S0 < max)%Z ->
    safe fl (fits max) (fun r w => match r with Ok _ => loop_inv S0 tmp (d ++ concat chunks) w | _ => True end)
      (Copy tmp chunks readOk) w.
  Proof.
    intros fl tmp S0 readOk chunks; induction chunks as [|c chunks IH]; intros d w T L HS; simpl.
    - split; [eapply loop_inv_fits; eauto|]. rewrite app_nil_r. destruct readOk; auto.
    - split; [eapply loop_inv_fits; eauto|]. intros r w' St. unfold sys_step in St. destruct St as [_ St].
      assert (G : forall ch, files w' = update tmp (fun f => mkFile (f_path f) (f_data f ++ ch) (clock w')) (files w) ->
                  loop_inv S0 tmp (d ++ ch) w').
      { intros ch E. destruct L as (A & B & C). split; [unfold wf; rewrite E, map_path_update; auto|].
        split; [rewrite E, tsum_update_other; auto; unfold noT; rewrite T; auto|].
        unfold has_data, content in *. rewrite E, lookup_update by auto.
        destruct (lookup tmp (files w)) as [f|]; simpl in *; [|discriminate].
        destruct (path_eq_dec tmp tmp); [|congruence]. simpl. congruence. }
      destruct r.
      + rewrite app_assoc. apply IH; auto.
      + destruct St as (F & n & St). split; [|exact I]. eapply loop_inv_fits; eauto.
  Qed.

  Lemma evict_fits : forall fl tmp S0 d folder name fuel w, in_tmp tmp = true ->
    in_tmp (cache_path folder name) = false ->
    loop_inv S0 tmp d w -> (S0 < max)%Z ->
    safe fl (loop_inv S0 tmp d)
      (fun r w => match r with Ok _ => ready max S0 (cache_path folder name) tmp d w | _ => True end)
      (CacheToFile_evict cfg fuel folder name tmp) w.
  Proof.
    intros fl tmp S0 d folder name fuel w T Tt L HS. unfold CacheToFile_evict.
    match goal with |- safe _ _ _ (match _ with StrategyNone => _ | StrategyLargest => ?p | StrategyLru => _ end) _ =>
      assert (G : safe fl (loop_inv S0 tmp d)
       (fun r w => match r with Ok _ => ready max S0 (cache_path folder name) tmp d w | _ => True end) p w) end.
    { split; auto. intros [cs|] w1 St; unfold sys_step in St; destruct St as (E & _ & St);
        (assert (S1 : loop_inv S0 tmp d w1) by (eapply loop_inv_files; eauto)); [|simpl; auto].
      split; auto. intros [sz|] w2 St2; unfold sys_step in St2; destruct St2 as (E2 & _ & St2);
        (assert (S2 : loop_inv S0 tmp d w2) by (eapply loop_inv_files; eauto)); [|simpl; auto].
      destruct St2 as (f & Lf & ->).
      assert (Sz : f_size f = Z.of_nat (List.length d)).
      { destruct S1 as (_ & _ & C). unfold has_data, content in C. rewrite Lf in C. simpl in C. inversion C; auto. }
      split; auto. intros r w3 St3; unfold sys_step in St3; destruct St3 as (E3 & _ & St3).
      assert (S3 : loop_inv S0 tmp d w3) by (eapply loop_inv_files; eauto).
      assert (Ecs : cs = total_size (files w3)) by (subst cs; unfold DirSizeInBytes; congruence). rewrite Ecs.
      apply evict_loop_size; auto. rewrite Sz.
      destruct r as [e|]; [|left; auto]. destruct St3 as (g & Lg & ->).
      right. exists (f_size g). split; auto. left. unfold size_of. rewrite E3, Lg. split; [auto|discriminate]. }
    destruct (CacheEvictionStrategy cfg); auto. contradiction.
  Qed.

  Lemma move_fits : forall fl tmp S0 d folder name w, in_tmp tmp = true ->
    in_tmp (cache_path folder name) = false -> (S0 < max)%Z ->
    ready max S0 (cache_path folder name) tmp d w ->
    safe fl (fits max) (fun _ _ => True) (CacheToFile_move folder name tmp) w.
  Proof.
    intros fl tmp S0 d folder name w T Tt HS [L R].
    split; [apply (loop_inv_fits max S0 tmp d HS); auto|]. intros ok w1 St. unfold sys_step in St. destruct St as (E & _ & _).
    assert (L1 : loop_inv S0 tmp d w1) by (eapply loop_inv_files; eauto).
    assert (F1 : fits max w1) by (apply (loop_inv_fits max S0 tmp d HS); auto).
    destruct ok; [|split; auto]. split; auto. intros ok w2 St2. unfold sys_step in St2. destruct St2 as [_ St2].
    split; auto. destruct ok; [|eapply fits_files; [apply St2|auto]].
    destruct St2 as (f & Lf & F). destruct L1 as (A & B & C).
    assert (f_data f = d) by (unfold has_data, content in C; rewrite Lf in C; simpl in C; congruence).
    assert (Kt : noT (cache_path folder name) = true) by (unfold noT; rewrite Tt; auto).
    assert (Ktmp : noT tmp = false) by (unfold noT; rewrite T; auto).
    split.
    - unfold wf. rewrite F. simpl. constructor; [apply not_in_delete|]. apply NoDup_delete, NoDup_delete; auto.
    - rewrite F, tsum_cons. cbn [f_path]. rewrite Kt. rewrite tsum_delete_path by (auto; apply NoDup_delete; auto).
      rewrite tsum_delete_other by auto. unfold size_of in *. rewrite lookup_delete_neq by congruence.
      fold (size_of (files w1) (cache_path folder name)) in *. unfold size_of in *. rewrite <- E in R. unfold f_size at 1. simpl f_data. subst d. lia.
  Qed.

  Lemma then_ok_fits : forall fl (I : world -> Prop) (Q1 Q2 : res unit -> world -> Prop) p q w,
    (forall w, I w -> forall a w', a <> Ok tt -> Q2 a w') ->
    safe fl I Q1 p w -> (forall w, I w -> Q1 (Ok tt) w -> safe fl I Q2 q w) ->
    safe fl I Q2 (then_ok p q) w.
  Proof.
    intros fl I Q1 Q2 p q w N H K. unfold then_ok. apply safe_bind. eapply safe_mono; [| |exact H]; auto.
    intros [[]| | |] w1 I1 Q; simpl; auto; split; auto; eapply N; eauto; discriminate.
  Qed.

  Lemma CacheToFile_fits : forall fl fuel folder name chunks readOk w,
    In folder cache_folders -> fits max w ->
    safe fl (fits max) (fun _ _ => True) (CacheToFile cfg fuel folder name chunks readOk) w.
  Proof.
    intros fl fuel folder name chunks readOk w HF FW. pose proof (in_tmp_cache_path folder name HF) as Tt.
    split; auto. intros r w1 St. unfold sys_step in St. destruct St as (E & _ & _).
    assert (F1 : fits max w1) by (eapply fits_files; eauto).
    assert (G : safe fl (fits max) (fun _ _ => True)
      (Call (SCreateTemp (SanitizeFilename name)) (fun r =>
        match r with
        | None => Ret Err
        | Some tmp =>
          pbind
            (then_ok (Copy tmp chunks readOk)
               (then_ok (CacheToFile_evict cfg fuel folder name tmp)
                  (CacheToFile_move folder name tmp)))
            (fun res => Call (SRemove tmp) (fun _ => Call (SClose tmp) (fun _ => Ret res)))
        end)) w1); [|destruct r; auto; simpl; auto].
    split; auto. intros [tmp|] w2 St2; unfold sys_step in St2; destruct St2 as [_ St2].
    2: { split; auto. eapply fits_files; [apply St2|auto]. }
    destruct St2 as (rnd & -> & Ln & E2). set (tmp := [TempDirName; SanitizeFilename name ++ rnd]) in *.
    assert (T : in_tmp tmp = true) by apply in_tmp_temp.
    set (S0 := tsum noT (files w1)).
    assert (HS : (S0 < max)%Z) by apply F1.
    assert (L2 : loop_inv S0 tmp [] w2).
    { split; [unfold wf; rewrite E2; simpl; constructor; [apply lookup_none; auto|apply F1]|].
      split; [rewrite E2, tsum_cons; cbn [f_path]; unfold noT at 1; rewrite T; simpl; unfold S0; lia|].
      unfold has_data, content. rewrite E2, lookup_cons. cbn [f_path]. destruct (path_eq_dec tmp tmp); [auto|congruence]. }
    apply safe_bind. eapply (safe_mono fl (fits max) (fits max) (fun _ _ => True)); [auto| |].
    - intros a w3 F3 _. split; auto. intros b w4 St4. unfold sys_step in St4. destruct St4 as [_ St4].
      assert (F4 : fits max w4) by (destruct b; [eapply fits_delete; [apply St4|auto]|eapply fits_files; [apply St4|auto]]).
      split; auto. intros b2 w5 St5. unfold sys_step in St5. split; auto. eapply fits_files; [apply St5|auto].
    - eapply then_ok_fits; [auto|eapply Copy_fits; eauto|].
      intros w3 F3 L3. simpl in L3.
      eapply then_ok_fits; [auto| |].
      + eapply safe_mono; [| |eapply evict_fits; eauto].
        * intros v Lv; eapply loop_inv_fits; eauto.
        * intros a v _ Q; exact Q.
      + intros w4 F4 R. simpl in R. eapply move_fits; eauto.
  Qed.

  Lemma GetFile_fits : forall fl folder name w, fits max w ->
    safe fl (fits max) (fun _ _ => True) (GetFile cfg folder name) w.
  Proof.
    intros fl folder name w F.
    assert (TC : forall b w, fits max w -> safe fl (fits max) (fun _ _ => True) (touch cfg (cache_path folder name) b) w).
    { intros b v Fv. unfold touch. destruct (CacheEvictionStrategy cfg); try (simpl; auto; fail).
      split; auto. intros t v1 St. unfold sys_step in St.
      assert (Fv1 : fits max v1) by (eapply fits_files; [apply St|auto]).
      split; auto. intros ok v2 St2. unfold sys_step in St2. destruct St2 as [_ St2]. split; auto.
      destruct ok; [|eapply fits_files; [apply St2|auto]]. destruct St2 as [_ E].
      destruct Fv1 as [A B]; split; [unfold wf; rewrite E, map_path_update; auto|].
      rewrite E, tsum_update_same_size; auto. }
    unfold GetFile, isOutdated. split; auto. intros r w1 St. unfold sys_step in St.
    assert (F1 : fits max w1) by (eapply fits_files; [apply St|auto]).
    destruct r; [|split; auto|split; auto]. split; auto. intros t w2 St2. unfold sys_step in St2.
    assert (F2 : fits max w2) by (eapply fits_files; [apply St2|auto]).
    cbn [pbind]. destruct (CacheMaxAge cfg <? _)%Z; [|apply TC; auto].
    split; auto. intros ok w3 St3. unfold sys_step in St3. destruct St3 as [_ St3]. destruct ok.
    - apply TC. eapply fits_delete; [apply St3|auto].
    - split; auto. eapply fits_files; [apply St3|auto].
  Qed.

  Lemma NoDup_filter_path : forall k fs, NoDup (map f_path fs) -> NoDup (map f_path (filter k fs)).
  Proof.
    intros k fs; induction fs as [|f fs IH]; simpl; intros H; auto. inversion H; subst.
    destruct (k f); auto. simpl; constructor; auto. intros K. apply H2.
    apply in_map_iff in K as (x & E & Hx). apply filter_In in Hx as [Hx _]. rewrite <- E; apply in_map; auto.
  Qed.

  Lemma filter_idem : forall {A} k (l : list A), filter k (filter k l) = filter k l.
  Proof. intros A k l; induction l as [|x l IH]; simpl; auto. destruct (k x) eqn:E; simpl; rewrite ?E, IH; auto. Qed.

  Lemma history_fits : forall w0 ops w, fits max w0 -> history cfg w0 ops w -> fits max w.
  Proof.
    intros w0 ops w F H; induction H; auto.
    - eapply safe_inv. eapply safe_steps; [eassumption|]. apply GetFile_fits; auto.
    - eapply safe_inv. eapply safe_steps; [eassumption|]. apply CacheToFile_fits; auto.
    - destruct IHhistory as [A B]. split.
      + unfold wf. rewrite H0. apply NoDup_filter_path; auto.
      + rewrite H0. unfold cached, tsum. change (fun f => noT (f_path f)) with (fun f => negb (in_tmp (f_path f))).
        rewrite filter_idem. exact B.
  Qed.
End SizeOfCall.
