(** * Proofs about the cache model: eviction order, progress, lookups *)

From Coq Require Import Ascii String.
From Coq Require Import List Arith NArith ZArith Bool Lia Permutation.
From Verif Require Import GoStr GoStrFacts UtilModel UtilSpec UtilProofs CacheModel CacheSpec CacheProofs.
Import ListNotations.
Local Open Scope list_scope.

(** ** A proof rule for CacheToFile *)

Section Rule.
  Variable fl : bool.
  Variable cfg : cache_config.
  Variable fuel : nat.
  Variables folder name : str.
  Variable chunks : list str.
  Variable readOk : bool.
  Variable w0 : world.
  Variable I : world -> Prop.
  Variable L : path -> str -> world -> Prop.
  Variable Rd : path -> world -> Prop.
  Variable M : path -> res unit -> world -> Prop.
  Variable Q : res unit -> world -> Prop.

  Hypothesis Hstart : forall w, files w = files w0 -> I w.
  Hypothesis Hfail : forall w, files w = files w0 -> fl = true -> Q Err w.
  Hypothesis Hcreate : forall w rnd, let tmp := [TempDirName; SanitizeFilename name ++ rnd] in
    lookup tmp (files w0) = None -> files w = mkFile tmp [] (clock w) :: files w0 -> L tmp [] w.
  Hypothesis HLI : forall tmp d w, in_tmp tmp = true -> L tmp d w -> I w.
  Hypothesis Hwrite : forall tmp d c w w', in_tmp tmp = true -> L tmp d w ->
    files w' = update tmp (fun f => mkFile (f_path f) (f_data f ++ c) (clock w')) (files w) -> L tmp (d ++ c) w'.
  Hypothesis Hcopyfail : forall tmp d w, in_tmp tmp = true -> L tmp d w -> fl = true \/ readOk = false -> M tmp Err w.
  Hypothesis Hevict : forall tmp w, in_tmp tmp = true -> L tmp (concat chunks) w -> readOk = true ->
    safe fl I (fun r w => match r with Ok _ => Rd tmp w | _ => M tmp r w end)
      (CacheToFile_evict cfg fuel folder name tmp) w.
  Hypothesis Hmove : forall tmp w, in_tmp tmp = true -> Rd tmp w ->
    safe fl I (M tmp) (CacheToFile_move folder name tmp) w.
  Hypothesis Hclean : forall tmp r w w', in_tmp tmp = true -> M tmp r w ->
    files w' = files w \/ files w' = delete tmp (files w) -> I w' /\ Q r w'.

  Lemma Copy_rule : forall tmp cs d w, in_tmp tmp = true -> L tmp d w ->
    safe fl I (fun r w => match r with Ok _ => L tmp (d ++ concat cs) w /\ readOk = true | Err => M tmp Err w | _ => False end)
      (Copy tmp cs readOk) w.
  Proof.
    intros tmp cs; induction cs as [|c cs IH]; intros d w T H; simpl.
    - split; [eauto|]. rewrite app_nil_r. destruct readOk eqn:E; auto. eapply Hcopyfail; eauto.
    - split; [eauto|]. intros ok w1 St. unfold sys_step in St. destruct St as [_ St]. destruct ok.
      + rewrite app_assoc. apply IH; auto. eapply Hwrite; eauto.
      + destruct St as (F & n & St). assert (L tmp (d ++ firstn n c) w1) by (eapply Hwrite; eauto).
        split; eauto.
  Qed.

  Lemma CacheToFile_rule : safe fl I Q (CacheToFile cfg fuel folder name chunks readOk) w0.
  Proof.
    split; [auto|]. intros r w1 St. unfold sys_step in St. destruct St as (E & _ & F).
    assert (G : safe fl I Q
      (Call (SCreateTemp (SanitizeFilename name)) (fun r =>
        match r with
        | None => Ret Err
        | Some tmp =>
          pbind
            (then_ok (Copy tmp chunks readOk)
               (then_ok (CacheToFile_evict cfg fuel folder name tmp)
                  (CacheToFile_move folder name tmp)))
            (fun res => Call (SRemove tmp) (fun _ => Call (SClose tmp) (fun _ => Ret res)))
        end)) w1); [|destruct r; auto; split; auto].
    split; [auto|]. intros [tmp|] w2 St2; unfold sys_step in St2; destruct St2 as [_ St2].
    2: { destruct St2 as [F2 E2]. split; [|apply Hfail]; auto; try apply Hstart; congruence. }
    destruct St2 as (rnd & -> & Ln & E2). rewrite E in Ln, E2.
    pose proof (Hcreate w2 rnd Ln E2) as L2. set (tmp := [TempDirName; SanitizeFilename name ++ rnd]) in *.
    assert (T : in_tmp tmp = true) by apply in_tmp_temp.
    apply safe_bind. apply safe_mono with (I := I) (Q := M tmp); [auto| |].
    - intros a w3 I3 M3. split; [auto|]. intros b w4 St4. unfold sys_step in St4. destruct St4 as [_ St4].
      assert (E4 : files w4 = files w3 \/ files w4 = delete tmp (files w3)) by (destruct b; destruct St4; auto).
      destruct (Hclean tmp a w3 w4 T M3 E4) as [I4 Q4].
      split; [auto|]. intros b2 w5 St5. unfold sys_step in St5. destruct St5 as [E5 _]. rewrite <- E5 in E4.
      apply (Hclean tmp a w3 w5 T M3 E4).
    - apply then_ok_safe. eapply safe_mono; [| |apply Copy_rule; eauto]; auto.
      intros [u| | |] w3 I3 K; try contradiction; auto. destruct K as [L3 RO]. simpl in L3.
      apply then_ok_safe. eapply safe_mono; [| |apply Hevict; eauto]; auto.
      intros [u4| | |] w4 I4 K4; auto.
  Qed.
End Rule.

(** ** Order of evictions *)

Definition prefers (s : strategy) (e k : file) : Prop :=
  match s with
  | StrategyLargest => (f_size k <= f_size e)%Z
  | StrategyLru => (f_mtime e <= f_mtime k)%Z
  | StrategyNone => False
  end.

Section Order.
  Variable fl : bool.
  Variable cfg : cache_config.
  Variable w0 : world.
  Hypothesis W0 : wf w0.

  Definition only_old (w : world) : Prop :=
    forall f, In f (files w) -> in_tmp (f_path f) = false -> In f (files w0).

  Definition ordered (w : world) : Prop :=
    forall e k, In e (files w0) -> in_tmp (f_path e) = false -> lookup (f_path e) (files w) = None ->
      In k (files w) -> in_tmp (f_path k) = false -> prefers (CacheEvictionStrategy cfg) e k.

  Definition ord_inv (tmp : path) (d : str) (w : world) : Prop :=
    wf w /\ only_old w /\ ordered w /\ has_data tmp d w /\ (tsum in_tmp (files w) = tsum in_tmp (files w0) + Z.of_nat (List.length d))%Z.

  (** Evictions happen only while the computed size is too large. *)
  Definition needed (net : Z) (w : world) : Prop :=
    (forall f, In f (files w0) -> in_tmp (f_path f) = false -> In f (files w)) \/
    exists e, In e (files w0) /\ in_tmp (f_path e) = false /\ lookup (f_path e) (files w) = None /\
      (CacheMaxSize cfg <= total_size (files w) + f_size e + net)%Z.

  Lemma ord_inv_files : forall tmp d w w', files w' = files w -> ord_inv tmp d w -> ord_inv tmp d w'.
  Proof.
    intros tmp d w w' E H. unfold ord_inv, wf, only_old, ordered, has_data in *. rewrite (content_files w w') by auto. rewrite E; auto.
  Qed.

  Lemma needed_files : forall net w w', files w' = files w -> needed net w -> needed net w'.
  Proof. intros net w w' E H. unfold needed in *. rewrite E; auto. Qed.

  Lemma evict_step : forall tmp d net w w' f,
    in_tmp tmp = true -> ord_inv tmp d w -> In f (files w) -> in_tmp (f_path f) = false ->
    (forall g, In g (files w) -> in_tmp (f_path g) = false -> prefers (CacheEvictionStrategy cfg) f g) ->
    (CacheMaxSize cfg <= total_size (files w) + net)%Z ->
    files w' = delete (f_path f) (files w) ->
    ord_inv tmp d w' /\ needed net w' /\ total_size (files w') = (total_size (files w) - f_size f)%Z.
  Proof.
    intros tmp d net w w' f T (A & B & C & D & TS) Hf Tf P K E.
    assert (TD : total_size (files w') = (total_size (files w) - f_size f)%Z) by (rewrite E; apply total_delete; auto).
    split; [|split; auto].
    - split; [unfold wf; rewrite E; apply NoDup_delete; auto|]. split; [|split; [|split]].
      + intros g Hg Tg. rewrite E in Hg. apply delete_In in Hg as [Hg _]. auto.
      + intros e k He Te Le Hk Tk. rewrite E in Hk. apply delete_In in Hk as [Hk Nk].
        destruct (path_eq_dec (f_path e) (f_path f)) as [Ep|Np].
        * assert (e = f).
          { pose proof (lookup_In (files w0) e W0 He) as X. pose proof (lookup_In (files w0) f W0 (B f Hf Tf)) as Y.
            rewrite Ep in X. congruence. }
          subst e. auto.
        * rewrite E, lookup_delete_neq in Le by auto. apply C; auto.
      + unfold has_data, content in *. rewrite E, lookup_delete_neq; auto. congruence.
      + rewrite E, tsum_delete_other; auto.
    - right. exists f. split; auto. split; auto. split; [rewrite E; apply lookup_delete_eq|]. lia.
  Qed.

  Lemma remove_order : forall tmp d net f w,
    in_tmp tmp = true -> ord_inv tmp d w -> In f (files w) -> in_tmp (f_path f) = false ->
    (forall g, In g (files w) -> in_tmp (f_path g) = false -> prefers (CacheEvictionStrategy cfg) f g) ->
    (CacheMaxSize cfg <= total_size (files w) + net)%Z -> needed net w ->
    safe fl (fun w => ord_inv tmp d w /\ needed net w)
      (fun r w' => match r with Ok cs => cs = total_size (files w') /\ (List.length (cached w') < List.length (cached w))%nat
                              | Err => fl = true | _ => False end)
      (Call (SRemove (f_path f)) (fun ok => Ret (if ok : bool then Ok (total_size (files w) - f_size f)%Z else Err))) w.
  Proof.
    intros tmp d net f w T H Hf Tf P K N. split; auto. intros ok w1 St. unfold sys_step in St. destruct St as [_ St].
    destruct ok; destruct St as [A E].
    - destruct (evict_step tmp d net w w1 f T H Hf Tf P K E) as (X & Y & Z). split; auto. split; auto.
      unfold cached. rewrite E. clear - Hf Tf. induction (files w) as [|g gs IH]; [contradiction|].
      assert (LE : (List.length (filter (fun f0 => negb (in_tmp (f_path f0))) (delete (f_path f) gs)) <=
                   List.length (filter (fun f0 => negb (in_tmp (f_path f0))) gs))%nat).
      { clear. induction gs as [|g gs IH]; simpl; auto. destruct (path_eq_dec (f_path g) (f_path f)); simpl; destruct (in_tmp (f_path g)); simpl; lia. }
      simpl. destruct (path_eq_dec (f_path g) (f_path f)) as [Ep|Np].
      + rewrite Ep, Tf. simpl. lia.
      + simpl. destruct Hf as [->|Hf]; [congruence|]. specialize (IH Hf). destruct (in_tmp (f_path g)); simpl; lia.
    - split; [split; [eapply ord_inv_files; eauto|eapply needed_files; eauto]|].
      destruct A as [A|A]; auto. exfalso. rewrite (lookup_In (files w) f) in A; [discriminate|apply H|auto].
  Qed.

  Lemma cached_pos : forall w, (tsum noT (files w) > 0)%Z -> exists f, In f (files w) /\ in_tmp (f_path f) = false.
  Proof.
    intros w H. unfold tsum in H. destruct (filter (fun f => noT (f_path f)) (files w)) as [|f l] eqn:E.
    - simpl in H; lia.
    - exists f. assert (X : In f (f :: l)) by (left; auto). rewrite <- E in X. apply filter_In in X as [A B].
      unfold noT in B. apply negb_true_iff in B. auto.
  Qed.

  Lemma evict_one_order : forall tmp d net w, in_tmp tmp = true -> ord_inv tmp d w -> needed net w ->
    CacheEvictionStrategy cfg <> StrategyNone ->
    (CacheMaxSize cfg <= total_size (files w) + net)%Z ->
    safe fl (fun w => ord_inv tmp d w /\ needed net w)
     (fun r w' => match r with
        | Ok cs => cs = total_size (files w') /\ (List.length (cached w') < List.length (cached w))%nat
        | OutOfFuel => False
        | _ => fl = true \/ tsum noT (files w) = 0%Z end)
     (match CacheEvictionStrategy cfg with
     | StrategyLargest => deleteLargestFileFromCache (total_size (files w))
     | StrategyLru => deleteLruFileFromCache (total_size (files w))
     | StrategyNone => Ret Panic
     end) w.
  Proof.
    intros tmp d net w T O N ST K. destruct (CacheEvictionStrategy cfg) eqn:S; [contradiction| |].
    - split; auto. intros r w1 St. unfold sys_step in St. destruct St as (E & _ & St).
      assert (O1 : ord_inv tmp d w1) by (eapply ord_inv_files; eauto).
      assert (N1 : needed net w1) by (eapply needed_files; eauto).
      destruct St as [[-> F]|(walk & P & ->)]; [split; auto|].
      destruct (FindLargestFile_walk None walk) as [f|] eqn:Kf.
      + apply FindLargest_spec in Kf as ([Kf|A] & B & _ & C); [discriminate| |intros; discriminate].
        rewrite <- E in *. unfold cached. rewrite <- E. fold (cached w1). eapply safe_mono; [| |apply remove_order; eauto]; auto.
        * intros [cs| | |] v _ Q; auto; try contradiction.
        * eapply Permutation_in; eauto.
        * intros g Hg Tg. rewrite S. simpl. apply C; auto. eapply Permutation_in; [apply Permutation_sym|]; eauto.
      + apply FindLargest_none in Kf as [_ Kf]. split; auto. right.
        assert (Z : filter (fun f => noT (f_path f)) (files w) = []).
        { destruct (filter _ _) as [|g l] eqn:G; auto. exfalso.
          assert (X : In g (filter (fun f => noT (f_path f)) (files w))) by (rewrite G; left; auto).
          apply filter_In in X as [X Y]. eapply Permutation_in in X; [|apply Permutation_sym; eauto].
          apply Kf in X. unfold noT in Y. rewrite X in Y. discriminate. }
        unfold tsum. rewrite Z. reflexivity.
    - split; auto. intros r w1 St. unfold sys_step in St. destruct St as (E & _ & St).
      assert (O1 : ord_inv tmp d w1) by (eapply ord_inv_files; eauto).
      assert (N1 : needed net w1) by (eapply needed_files; eauto).
      destruct St as [[-> F]|(walk & P & ->)]; [split; auto|].
      destruct (FindLruFile_walk None walk) as [f|] eqn:Kf.
      + apply FindLru_spec in Kf as ([Kf|A] & B & _ & C); [discriminate| |intros; discriminate].
        rewrite <- E in *. unfold cached. rewrite <- E. fold (cached w1). eapply safe_mono; [| |apply remove_order; eauto]; auto.
        * intros [cs| | |] v _ Q; auto; try contradiction.
        * eapply Permutation_in; eauto.
        * intros g Hg Tg. rewrite S. simpl. apply C; auto. eapply Permutation_in; [apply Permutation_sym|]; eauto.
      + apply FindLru_none in Kf as [_ Kf]. split; auto. intros ok w2 St2. unfold sys_step in St2. destruct St2 as [_ St2].
        assert (Z : filter (fun f => noT (f_path f)) (files w) = []).
        { destruct (filter _ _) as [|g l] eqn:G; auto. exfalso.
          assert (X : In g (filter (fun f => noT (f_path f)) (files w))) by (rewrite G; left; auto).
          apply filter_In in X as [X Y]. eapply Permutation_in in X; [|apply Permutation_sym; eauto].
          apply Kf in X. unfold noT in Y. rewrite X in Y. discriminate. }
        assert (LN : lookup [] (files w1) = None).
        { apply lookup_none. intros X. apply in_map_iff in X as (f & Pf & Hf).
          rewrite E in Hf. eapply Permutation_in in Hf; [|apply Permutation_sym; exact P].
          specialize (Kf f Hf). rewrite Pf in Kf. discriminate. }
        destruct ok; destruct St2 as [A E2]; [contradiction|].
        split; [split; [eapply ord_inv_files; eauto|eapply needed_files; eauto]|].
        right. unfold tsum. rewrite Z. reflexivity.
  Qed.

  Lemma evict_loop_order : forall tmp d net, in_tmp tmp = true -> CacheEvictionStrategy cfg <> StrategyNone ->
    (net <= Z.of_nat (List.length d))%Z ->
    forall fuel w, ord_inv tmp d w -> needed net w ->
    safe fl (fun w => ord_inv tmp d w /\ needed net w)
      (fun r w' => match r with
         | Ok _ => True
         | _ => fl = true \/ (fuel < List.length (cached w))%nat \/
                (CacheMaxSize cfg <= tsum in_tmp (files w0) + 2 * Z.of_nat (List.length d))%Z end)
      (evict_loop cfg fuel net (total_size (files w))) w.
  Proof.
    intros tmp d net T ST HN fuel; induction fuel as [|fuel IH]; intros w O N; cbn [evict_loop].
    - destruct (CacheMaxSize cfg <=? total_size (files w) + net)%Z eqn:K; [|split; auto].
      split; auto. right. apply Z.leb_le in K. rewrite total_split in K. destruct O as (_ & _ & _ & _ & TS).
      destruct (cached w) as [|c l] eqn:E; [|left; cbn [List.length]; lia]. right.
      assert (tsum noT (files w) = 0%Z) by (unfold tsum, noT; fold (cached w); rewrite E; auto). lia.
    - destruct (CacheMaxSize cfg <=? total_size (files w) + net)%Z eqn:K; [|split; auto].
      apply Z.leb_le in K.
      apply safe_bind. eapply safe_mono; [| |apply (evict_one_order tmp d net w); auto]; auto.
      assert (BAD : fl = true \/ tsum noT (files w) = 0%Z ->
        fl = true \/ (S fuel < List.length (cached w))%nat \/
                (CacheMaxSize cfg <= tsum in_tmp (files w0) + 2 * Z.of_nat (List.length d))%Z).
      { intros [F|Z]; auto. right; right. rewrite total_split in K. destruct O as (_ & _ & _ & _ & TS). lia. }
      intros [cs| | |] w1 [O1 N1] Q; try (split; auto; fail).
      destruct Q as [-> LT]. eapply safe_mono; [| |apply IH; auto]; auto.
      intros [u| | |] w2 _ Q2; auto; destruct Q2 as [Q2|[Q2|Q2]]; auto; right; left; lia.
  Qed.
End Order.

(** ** The complete call: order, necessity, progress *)

Section OrderCall.
  Variable fl : bool.
  Variable cfg : cache_config.
  Variable w0 : world.
  Variables folder name : str.
  Variable fuel : nat.
  Variable chunks : list str.
  Variable readOk : bool.
  Hypothesis W0 : wf w0.
  Hypothesis HF : In folder cache_folders.
  Hypothesis ST : CacheEvictionStrategy cfg <> StrategyNone.
  Let target := cache_path folder name.
  Let T : Z := Z.of_nat (List.length (concat chunks)).

  (** Files that are gone *)
  Definition gone (w : world) (e : file) : Prop :=
    In e (files w0) /\ in_tmp (f_path e) = false /\ lookup (f_path e) (files w) = None.

  Definition other (p : path) : bool := noT p && (if path_eq_dec p target then false else true).

  Definition ordered_but (w : world) : Prop :=
    forall e k, gone w e -> In k (files w0) -> In k (files w) -> in_tmp (f_path k) = false -> f_path k <> target ->
      prefers (CacheEvictionStrategy cfg) e k.

  Definition needed_final (w : world) : Prop :=
    (forall e, ~ gone w e) \/
    exists e, gone w e \/ (In e (files w0) /\ f_path e = target) /\
      (CacheMaxSize cfg <= tsum other (files w) + f_size e + tsum in_tmp (files w0) + 2 * T)%Z.

  (** In every state *)
  Definition needed_any (w : world) : Prop :=
    fl = false ->
    (forall e, In e (files w0) -> in_tmp (f_path e) = false -> f_path e <> target -> In e (files w)) \/
    exists e, In e (files w0) /\ in_tmp (f_path e) = false /\ (f_path e = target \/ lookup (f_path e) (files w) = None) /\
      (CacheMaxSize cfg <= tsum other (files w) + f_size e + tsum in_tmp (files w0) + 2 * T)%Z.

  Definition call_inv (w : world) : Prop := wf w /\ ordered_but w /\ needed_any w.

  Lemma target_noT : in_tmp target = false.
  Proof. apply in_tmp_cache_path; auto. Qed.

  Lemma other_target : other target = false.
  Proof. unfold other. destruct (path_eq_dec target target); [apply andb_false_r|congruence]. Qed.

  Lemma other_neq : forall p, p <> target -> other p = noT p.
  Proof. intros p N. unfold other. destruct (path_eq_dec p target); [congruence|apply andb_true_r]. Qed.

  Lemma tsum_other : forall fs, NoDup (map f_path fs) -> tsum noT fs = (tsum other fs + size_of fs target)%Z.
  Proof.
    induction fs as [|f fs IH]; intros N; [reflexivity|]. simpl in N. inversion N as [|? ? A B]; subst.
    rewrite !tsum_cons, IH by auto. unfold size_of. rewrite lookup_cons.
    destruct (path_eq_dec (f_path f) target) as [E|E].
    - rewrite E, other_target. unfold noT at 1. rewrite target_noT. cbn [negb].
      rewrite E in A. apply lookup_none in A. rewrite A. lia.
    - rewrite other_neq by auto. destruct (noT (f_path f)); lia.
  Qed.

  Lemma ord_ordered_but : forall tmp d w, ord_inv cfg w0 tmp d w -> ordered_but w.
  Proof. intros tmp d w (_ & _ & H & _) e k (A & B & C) K1 K2 K3 K4. apply H; auto. Qed.

  Definition net_small (net : Z) : Prop := fl = false -> (net = T - size_of (files w0) target)%Z.

  Lemma needed_needed_any : forall tmp net w, ord_inv cfg w0 tmp (concat chunks) w -> net_small net ->
    needed cfg w0 net w -> needed_any w.
  Proof.
    intros tmp net w (A & B & C & D & TS) NS [N|(e & E1 & E2 & E3 & E4)] F.
    - left; auto.
    - right. exists e. split; auto. split; auto. split; auto.
      rewrite total_split, TS, tsum_other in E4 by auto. fold T in E4. specialize (NS F).
      assert (size_of (files w) target <= size_of (files w0) target)%Z; [|lia].
      unfold size_of. destruct (lookup target (files w)) as [g|] eqn:Lg.
      + apply lookup_some in Lg as [Hg Pg]. pose proof target_noT as TT. rewrite <- Pg in TT. apply B in Hg; auto.
        rewrite <- Pg, (lookup_In (files w0) g); auto. lia.
      + destruct (lookup target (files w0)); [unfold f_size|]; lia.
  Qed.

  (** During the copy nothing is evicted. *)
  Definition copying (tmp : path) (d : str) (w : world) : Prop :=
    ord_inv cfg w0 tmp d w /\ lookup tmp (files w0) = None /\ in_tmp tmp = true /\
    forall f, In f (files w0) -> In f (files w).

  Lemma copying_call_inv : forall tmp d w, copying tmp d w -> call_inv w.
  Proof.
    intros tmp d w (A & _ & _ & B). split; [apply A|]. split; [eapply ord_ordered_but; eauto|]. intros _; left; auto.
  Qed.

  Definition readyO (tmp : path) (w : world) : Prop :=
    ord_inv cfg w0 tmp (concat chunks) w /\ exists net, net_small net /\ needed cfg w0 net w.

  Lemma readyO_call_inv : forall tmp w, readyO tmp w -> call_inv w.
  Proof.
    intros tmp w (A & net & B & C). split; [apply A|]. split; [eapply ord_ordered_but; eauto|].
    eapply needed_needed_any; eauto.
  Qed.

  Lemma call_inv_files : forall w w', files w' = files w -> call_inv w -> call_inv w'.
  Proof. intros w w' E H. unfold call_inv, wf, ordered_but, needed_any, gone in *. rewrite E; auto. Qed.

  Lemma call_inv_delete_tmp : forall w w' q, in_tmp q = true -> files w' = delete q (files w) -> call_inv w -> call_inv w'.
  Proof.
    intros w w' q Tq E (A & B & C).
    assert (LK : forall p, in_tmp p = false -> lookup p (files w') = lookup p (files w)).
    { intros p Tp. rewrite E. apply lookup_delete_neq. congruence. }
    split; [unfold wf; rewrite E; apply NoDup_delete; auto|]. split.
    - intros e k (G1 & G2 & G3) K1 K2 K3 K4. rewrite LK in G3 by auto. apply B; auto; [split; auto|].
      rewrite E in K2. apply delete_In in K2; tauto.
    - intros F. destruct (C F) as [N|(e & E1 & E2 & E3 & E4)].
      + left. intros e He Te Ne. rewrite E. apply delete_In. split; auto. congruence.
      + right. exists e. split; auto. split; auto. split; [rewrite LK; auto|].
        rewrite E, tsum_delete_other; auto. unfold other, noT. rewrite Tq; auto.
  Qed.

  Lemma call_inv_rename : forall w w' tmp f, in_tmp tmp = true -> lookup tmp (files w) = Some f ->
    files w' = mkFile target (f_data f) (f_mtime f) :: delete target (delete tmp (files w)) ->
    call_inv w -> call_inv w'.
  Proof.
    intros w w' tmp f Tt Lf E (A & B & C). pose proof target_noT as TT.
    assert (LK : forall p, in_tmp p = false -> p <> target -> lookup p (files w') = lookup p (files w)).
    { intros p Tp Np. rewrite E, lookup_cons. cbn [f_path]. destruct (path_eq_dec target p); [congruence|].
      rewrite !lookup_delete_neq; auto; congruence. }
    split; [unfold wf; rewrite E; simpl; constructor; [apply not_in_delete|apply NoDup_delete, NoDup_delete; auto]|]. split.
    - intros e k (G1 & G2 & G3) K1 K2 K3 K4.
      assert (f_path e <> target).
      { intros X. rewrite X, E, lookup_cons in G3. cbn [f_path] in G3. destruct (path_eq_dec target target); [discriminate|congruence]. }
      rewrite LK in G3 by auto. apply B; auto; [split; auto|].
      rewrite E in K2. destruct K2 as [<-|K2]; [exfalso; apply K4; auto|]. apply delete_In in K2 as [K2 _]. apply delete_In in K2; tauto.
    - intros F.
      assert (SZ : tsum other (files w') = tsum other (files w)).
      { rewrite E, tsum_cons. cbn [f_path]. rewrite other_target.
        rewrite !tsum_delete_other; auto; try apply NoDup_delete; auto; [|apply other_target].
        unfold other, noT; rewrite Tt; auto. }
      destruct (C F) as [N|(e & E1 & E2 & E3 & E4)].
      + left. intros e He Te Ne. rewrite E. right. apply delete_In. split; auto. apply delete_In. split; auto. congruence.
      + right. exists e. split; auto. split; auto. rewrite SZ. split; auto. destruct (path_eq_dec (f_path e) target); auto.
        destruct E3 as [E3|E3]; auto. rewrite LK; auto.
  Qed.

  (** Conditions under which a fault free call succeeds *)
  Definition excuse : Prop :=
    fl = true \/ readOk = false \/ (fuel < List.length (cached w0))%nat \/
    (CacheMaxSize cfg <= tsum in_tmp (files w0) + 2 * T)%Z.

  Definition final_ok (r : res unit) : Prop := match r with Ok _ => True | _ => excuse end.

  Lemma cached_le : forall w, wf w -> only_old w0 w -> (List.length (cached w) <= List.length (cached w0))%nat.
  Proof.
    intros w A B. apply NoDup_incl_length.
    - eapply NoDup_map_inv. apply NoDup_filter_path; exact A.
    - intros f Hf. apply filter_In in Hf as [H1 H2]. apply filter_In. split; auto. apply B; auto. apply negb_true_iff; auto.
  Qed.

  Lemma CacheToFile_order : safe fl call_inv (fun r _ => final_ok r) (CacheToFile cfg fuel folder name chunks readOk) w0.
  Proof.
    assert (START : forall w, files w = files w0 -> call_inv w).
    { intros w E. split; [unfold wf; rewrite E; auto|]. split.
      - intros e k (G1 & G2 & G3) K1 K2 K3 K4. rewrite E in G3. rewrite (lookup_In (files w0) e) in G3; auto. discriminate.
      - intros _. left. intros e He Te Ne. rewrite E; auto. }
    apply (CacheToFile_rule fl cfg fuel folder name chunks readOk w0 call_inv copying readyO
            (fun tmp r w => call_inv w /\ final_ok r) (fun r _ => final_ok r)).
    - exact START.
    - intros w E F. left; auto.
    - intros w rnd tmp Ln E. assert (Tt : in_tmp tmp = true) by apply in_tmp_temp.
      assert (LK : forall p, p <> tmp -> lookup p (files w) = lookup p (files w0)).
      { intros p Np. rewrite E, lookup_cons. cbn [f_path]. destruct (path_eq_dec tmp p); [congruence|auto]. }
      split; [split; [|split; [|split; [|split]]]|split; [|split]].
      + unfold wf. rewrite E. simpl. constructor; auto. apply lookup_none; auto.
      + intros f Hf Tf. rewrite E in Hf. destruct Hf as [<-|Hf]; auto. cbn [f_path] in Tf. congruence.
      + intros e k He Te Le _ _. rewrite LK in Le by congruence. rewrite (lookup_In (files w0) e) in Le; auto. discriminate.
      + unfold has_data, content. rewrite E, lookup_cons. cbn [f_path]. destruct (path_eq_dec tmp tmp); [auto|congruence].
      + rewrite E, tsum_cons. cbn [f_path]. rewrite Tt. unfold f_size; simpl. lia.
      + auto.
      + auto.
      + intros f Hf. rewrite E. right; auto.
    - intros tmp d w _ H. eapply copying_call_inv; eauto.
    - intros tmp d c w w' Tt ((A & B & C & D & TS) & Ln & _ & K) E.
      assert (LK : forall p, p <> tmp -> lookup p (files w') = lookup p (files w)).
      { intros p Np. rewrite E, lookup_update by auto. destruct (lookup p (files w)); simpl; auto. destruct (path_eq_dec p tmp); congruence. }
      assert (IN : forall f, f_path f <> tmp -> In f (files w') <-> In f (files w)).
      { intros f Nf. rewrite E. unfold update. rewrite in_map_iff. split.
        - intros (g & G1 & G2). destruct (path_eq_dec (f_path g) tmp) as [X|X]; [|subst; auto].
          exfalso. apply Nf. rewrite <- G1. auto.
        - intros H. exists f. split; auto. destruct (path_eq_dec (f_path f) tmp); congruence. }
      split; [split; [|split; [|split; [|split]]]|split; [|split]].
      + unfold wf. rewrite E, map_path_update; auto.
      + intros f Hf Tf. apply IN in Hf; [auto|congruence].
      + intros e k He Te Le Hk Tk. rewrite LK in Le by congruence. apply IN in Hk; [|congruence]. apply C; auto.
      + unfold has_data, content in *. rewrite E, lookup_update by auto.
        destruct (lookup tmp (files w)) as [f|]; simpl in *; [|discriminate].
        destruct (path_eq_dec tmp tmp); [|congruence]. simpl. congruence.
      + rewrite E. clear LK IN.
        unfold has_data, content in D. destruct (lookup tmp (files w)) as [f|] eqn:Lf; [|discriminate]. simpl in D. inversion D as [Ed].
        apply lookup_some in Lf as [Hf Pf].
        assert (G : forall fs, NoDup (map f_path fs) -> In f fs ->
          tsum in_tmp (update tmp (fun f0 => mkFile (f_path f0) (f_data f0 ++ c) (clock w')) fs) =
          (tsum in_tmp fs + Z.of_nat (List.length c))%Z).
        { induction fs as [|g fs IH]; intros ND HIn; [contradiction|]. simpl in ND. inversion ND as [|? ? X Y]; subst.
          cbn [update map]. fold (update (f_path f) (fun f0 => mkFile (f_path f0) (f_data f0 ++ c) (clock w')) fs).
          rewrite !tsum_cons. destruct HIn as [->|HIn].
          - destruct (path_eq_dec (f_path f) (f_path f)); [|congruence]. cbn [f_path]. rewrite Tt. unfold f_size at 1. cbn [f_data].
            replace (update (f_path f) _ fs) with fs; [rewrite app_length; unfold f_size; lia|].
            clear - X. induction fs as [|h fs IH]; auto. simpl. destruct (path_eq_dec (f_path h) (f_path f)) as [Q|Q].
            + exfalso. apply X. left; auto.
            + f_equal. apply IH. intros Z; apply X; right; auto.
          - rewrite IH by auto. destruct (path_eq_dec (f_path g) (f_path f)) as [Q|Q]; [|lia].
            exfalso. apply X. rewrite Q. apply in_map; auto. }
        rewrite G by auto. rewrite TS, app_length, Ed. lia.
      + auto.
      + auto.
      + intros f Hf. apply IN; auto. intros X. apply lookup_none in Ln. apply Ln. rewrite <- X. apply in_map; auto.
    - intros tmp d w _ H X. split; [eapply copying_call_inv; eauto|]. destruct X; [left|right; left]; auto.
    - intros tmp w Tt H RO. pose proof (copying_call_inv _ _ _ H) as CI. destruct H as (O & Ln & _ & K).
      unfold CacheToFile_evict.
      match goal with |- safe _ ?I ?Q (match _ with StrategyNone => _ | StrategyLargest => ?p | StrategyLru => _ end) _ =>
        assert (G : safe fl I Q p w); [|destruct (CacheEvictionStrategy cfg); auto; contradiction] end.
      split; auto. intros r1 w1 St1. unfold sys_step in St1. destruct St1 as (E1 & _ & St1).
      assert (C1 : call_inv w1) by (eapply call_inv_files; eauto).
      destruct r1 as [cs|]; [|split; auto; split; auto; left; auto].
      split; auto. intros r2 w2 St2. unfold sys_step in St2. destruct St2 as (E2 & _ & St2).
      assert (C2 : call_inv w2) by (eapply call_inv_files; eauto).
      assert (D : has_data tmp (concat chunks) w) by apply O.
      unfold has_data, content in D. destruct (lookup tmp (files w)) as [f|] eqn:Lf; [|discriminate]. simpl in D. inversion D as [Ed].
      destruct r2 as [sz|].
      2: { split; auto. split; auto. left. destruct St2 as [St2|St2]; auto. rewrite E1 in St2. congruence. }
      destruct St2 as (g & Lg & ->). rewrite E1, Lf in Lg. inversion Lg; subst g.
      assert (SZ : f_size f = T) by (unfold f_size, T; congruence).
      split; auto. intros r3 w3 St3. unfold sys_step in St3. destruct St3 as (E3 & _ & St3).
      assert (E : files w3 = files w) by congruence.
      assert (O3 : ord_inv cfg w0 tmp (concat chunks) w3) by (eapply ord_inv_files; eauto).
      set (net := match r3 with Some existing => (f_size f - existing)%Z | None => f_size f end).
      assert (Elk : lookup target (files w2) = lookup target (files w0)).
      { rewrite E2, E1. destruct (lookup target (files w0)) as [h|] eqn:Lh.
        - apply lookup_some in Lh as [Hh Ph]. rewrite <- Ph. apply lookup_In; [apply O|auto].
        - destruct (lookup target (files w)) as [h|] eqn:Lh2; auto. apply lookup_some in Lh2 as [Hh Ph].
          destruct O as (_ & B & _). assert (X : In h (files w0)) by (apply B; auto; rewrite Ph; apply target_noT).
          apply lookup_none in Lh. exfalso. apply Lh. rewrite <- Ph. apply in_map; auto. }
      assert (NS : net_small net /\ (net <= T)%Z).
      { unfold net, net_small, size_of. destruct r3 as [e|].
        - destruct St3 as (h & Lh & ->). fold target in Lh. rewrite <- Elk, Lh. rewrite SZ. split; [auto|]. assert (0 <= f_size h)%Z by (unfold f_size; lia). lia.
        - rewrite SZ. split; [|lia]. intros F. destruct St3 as [St3|St3]; [congruence|]. fold target in St3. rewrite <- Elk, St3. lia. }
      destruct NS as [NS NT].
      assert (ND : needed cfg w0 net w3).
      { left. intros h Hh Th. rewrite E. auto. }
      assert (Ecs : cs = total_size (files w3)) by (subst cs; unfold DirSizeInBytes; congruence). rewrite Ecs.
      eapply safe_mono; [| |apply (evict_loop_order fl cfg w0 W0 tmp (concat chunks) net); auto].
      + intros v [Ov Nv]. split; [apply Ov|]. split; [eapply ord_ordered_but; eauto|eapply needed_needed_any; eauto].
      + assert (BAD : forall P : Prop, (fl = true \/ (fuel < List.length (cached w3))%nat \/
           (CacheMaxSize cfg <= tsum in_tmp (files w0) + 2 * Z.of_nat (List.length (concat chunks)))%Z) -> excuse).
        { intros _ [X|[X|X]]; [left; auto|right; right; left|right; right; right; exact X].
          pose proof (cached_le w3) as Y. destruct O3 as (O31 & O32 & _). specialize (Y O31 O32). lia. }
        intros [u| | |] v [Ov Nv] X; [split; eauto| | |]; (split; [split; [apply Ov|]; split; [eapply ord_ordered_but; eauto|eapply needed_needed_any; eauto]|apply (BAD True X)]).
    - intros tmp w Tt R. pose proof (readyO_call_inv _ _ R) as CI. destruct R as (O & _).
      split; auto. intros ok w1 St1. unfold sys_step in St1. destruct St1 as (E1 & _ & St1).
      assert (C1 : call_inv w1) by (eapply call_inv_files; eauto).
      destruct ok; [|split; auto; split; auto; left; auto].
      split; [auto|]. intros ok w2 St2. unfold sys_step in St2. destruct St2 as [_ St2].
      destruct ok.
      + destruct St2 as (f & Lf & E2). assert (C2 : call_inv w2) by (eapply call_inv_rename; eauto). split; auto. split; auto. exact I.
      + destruct St2 as [X E2]. assert (C2 : call_inv w2) by (eapply call_inv_files; eauto). split; auto. split; auto.
        left. destruct X as [X|X]; auto. destruct O as (_ & _ & _ & D & _). unfold has_data, content in D. rewrite E1 in X. rewrite X in D. discriminate.
    - intros tmp r w w' Tt [A B] [E|E]; (split; [|auto]); [eapply call_inv_files; eauto|eapply call_inv_delete_tmp; eauto].
  Qed.
End OrderCall.

(** ** New content appears only from complete input *)

Lemma CacheToFile_complete : forall fl cfg fuel folder name chunks readOk w0, In folder cache_folders ->
  let target := cache_path folder name in
  safe fl
    (fun w => forall p, in_tmp p = false -> content w p = content w0 p \/ content w p = None \/
                (p = target /\ readOk = true /\ content w p = Some (concat chunks)))
    (fun r w => match r with
       | Ok _ => readOk = true /\ content w target = Some (concat chunks)
       | _ => forall p, in_tmp p = false -> content w p = content w0 p \/ content w p = None
       end)
    (CacheToFile cfg fuel folder name chunks readOk) w0.
Proof.
  intros fl cfg fuel folder name chunks readOk w0 HF target.
  assert (Tt : in_tmp target = false) by (apply in_tmp_cache_path; auto).
  set (I := fun w => forall p, in_tmp p = false -> content w p = content w0 p \/ content w p = None \/
                (p = target /\ readOk = true /\ content w p = Some (concat chunks))).
  set (Q := fun (r : res unit) w => match r with
       | Ok _ => readOk = true /\ content w target = Some (concat chunks)
       | _ => forall p, in_tmp p = false -> content w p = content w0 p \/ content w p = None
       end).
  assert (SI : forall w, shrunk_from w0 w -> I w).
  { intros w H p Tp. destruct (H p Tp); auto. }
  apply (CacheToFile_rule fl cfg fuel folder name chunks readOk w0 I
    (fun tmp d w => shrunk_from w0 w /\ has_data tmp d w)
    (fun tmp w => tmp_kept tmp (concat chunks) w0 w /\ readOk = true)
    (fun tmp r w => I w /\ Q r w) Q).
  - intros w E. apply SI. intros p _. left. apply content_files; auto.
  - intros w E _ p _. left. apply content_files; auto.
  - intros w rnd tmp Ln E. assert (Ttmp : in_tmp tmp = true) by apply in_tmp_temp. split.
    + intros p Tp. left. unfold content. rewrite E, lookup_cons. cbn [f_path]. destruct (path_eq_dec tmp p); [congruence|auto].
    + unfold has_data, content. rewrite E, lookup_cons. cbn [f_path]. destruct (path_eq_dec tmp tmp); [auto|congruence].
  - intros tmp d w _ [H _]. auto.
  - intros tmp d c w w' Ttmp [H D] E. split.
    + eapply shrunk_update_tmp; [| |exact E|exact H]; auto.
    + unfold has_data, content in *. rewrite E, lookup_update by auto.
      destruct (lookup tmp (files w)) as [f|]; simpl in *; [|discriminate].
      destruct (path_eq_dec tmp tmp); [|congruence]. simpl. congruence.
  - intros tmp d w _ [H _] _. split; auto.
  - intros tmp w Ttmp H RO. eapply safe_mono; [| |apply (CacheToFile_evict_safe fl cfg w0 tmp (concat chunks)); auto].
    + intros v [A _]; auto.
    + intros [u| | |] v Iv _; auto; destruct Iv; split; auto.
  - intros tmp w Ttmp [H RO].
    eapply safe_mono; [| |apply (CacheToFile_move_safe fl w0 folder name tmp (concat chunks) w); auto].
    + intros v A p Tp. destruct (A p Tp) as [X|[X|[X Y]]]; auto.
    + intros [u| | |] v A X; try contradiction.
      * split; [|split; auto]. intros p Tp. destruct (A p Tp) as [Z|[Z|[Z Y]]]; auto.
      * split; auto.
  - intros tmp r w w' Ttmp [A B] E.
    assert (SAME : forall p, in_tmp p = false -> content w' p = content w p).
    { intros p Tp. destruct E as [E|E]; [apply content_files; auto|]. unfold content. rewrite E, lookup_delete_neq; [auto|congruence]. }
    split.
    + intros p Tp. rewrite SAME by auto. auto.
    + destruct r; unfold Q in *; rewrite ?SAME by auto; auto; intros p Tp; rewrite SAME by auto; auto.
Qed.

(** ** Lookups *)

Definition too_old (cfg : cache_config) (mtime now : Z) : Prop :=
  ((CacheMaxAge cfg + 1) * ns_per_minute <= now - mtime)%Z.

Lemma quot_age : forall m x, (0 <= m)%Z -> ((m <? Z.quot x ns_per_minute) = true <-> (m + 1) * ns_per_minute <= x)%Z.
Proof.
  intros m x H. rewrite Z.ltb_lt. unfold ns_per_minute.
  destruct (Z.leb_spec 0 x) as [P|P].
  - rewrite Z.quot_div_nonneg by lia. split; intros K.
    + assert (X : (m + 1 <= x / 60000000000)%Z) by lia.
      pose proof (Z.mul_div_le x 60000000000 ltac:(lia)). nia.
    + apply Z.lt_le_trans with (m + 1)%Z; [lia|]. apply Z.div_le_lower_bound; lia.
  - split; intros K; [|lia].
    assert (Z.quot x 60000000000 <= 0)%Z; [|lia].
    rewrite <- (Z.opp_involutive x), Z.quot_opp_l by lia. pose proof (Z.quot_pos (- x) 60000000000). lia.
Qed.

Definition get_post (cfg : cache_config) (w0 : world) (target : path) (fl : bool) (r : res bool) (w : world) : Prop :=
  match r with
  | Ok true => exists f now, lookup target (files w0) = Some f /\ (clock w0 <= now <= clock w)%Z /\
      ~ too_old cfg (f_mtime f) now /\ content w target = Some (f_data f)
  | Ok false => content w target = None /\
      (lookup target (files w0) = None \/
       exists f now, lookup target (files w0) = Some f /\ (clock w0 <= now <= clock w)%Z /\ too_old cfg (f_mtime f) now)
  | Err => fl = true
  | _ => False
  end.

Definition get_inv (w0 : world) (target : path) (w : world) : Prop :=
  (clock w0 <= clock w)%Z /\
  (forall p, p <> target -> lookup p (files w) = lookup p (files w0)) /\
  (content w target = content w0 target \/ content w target = None).

Lemma GetFile_safe : forall fl cfg folder name w0, (0 <= CacheMaxAge cfg)%Z ->
  let target := cache_path folder name in
  safe fl (get_inv w0 target) (get_post cfg w0 target fl) (GetFile cfg folder name) w0.
Proof.
  intros fl cfg folder name w0 HA target.
  assert (FS : forall w w', files w' = files w -> (clock w <= clock w')%Z -> get_inv w0 target w -> get_inv w0 target w').
  { intros w w' E C (A & B & D). split; [lia|]. rewrite (content_files w w') by auto. rewrite E. auto. }
  assert (I0 : get_inv w0 target w0) by (split; [lia|auto]).
  assert (MONO : forall r w w', (clock w <= clock w')%Z -> content w' target = content w target ->
            get_post cfg w0 target fl r w -> get_post cfg w0 target fl r w').
  { intros [[]| | |] w w' C E H; simpl in *; auto.
    - destruct H as (f & now & X & Y & Z). exists f, now. rewrite E. repeat split; try tauto; lia.
    - rewrite E. destruct H as [X [Y|(f & now & Y & Z & V)]]; split; auto. right. exists f, now. repeat split; auto; lia. }
  assert (TC : forall r w, get_inv w0 target w -> get_post cfg w0 target fl r w ->
            safe fl (get_inv w0 target) (get_post cfg w0 target fl) (touch cfg target r) w).
  { intros r w Iw Pw. unfold touch. destruct (CacheEvictionStrategy cfg); try (split; auto; fail).
    split; auto. intros t w1 St1. unfold sys_step in St1. destruct St1 as (E1 & C1 & _).
    assert (I1 : get_inv w0 target w1) by eauto.
    split; auto. intros ok w2 St2. unfold sys_step in St2. destruct St2 as (C2 & St2).
    assert (X : forall p, content w2 p = content w1 p /\ (p <> target -> lookup p (files w2) = lookup p (files w1))).
    { intros p. unfold content. destruct ok; destruct St2 as [_ E2]; [|rewrite E2; auto].
      rewrite E2, lookup_update by auto. destruct (lookup p (files w1)); simpl; [|auto].
      destruct (path_eq_dec p target); simpl; split; auto; congruence. }
    split.
    - destruct I1 as (A & B & D). split; [lia|]. split; [intros p N; destruct (X p) as [_ Y]; rewrite Y by auto; auto|].
      destruct (X target) as [Y _]. rewrite Y; auto.
    - eapply (MONO r w); auto; [lia|]. destruct (X target) as [Y _]. rewrite Y. apply content_files; auto. }
  unfold GetFile, isOutdated. fold target.
  split; auto. intros r w1 St1. unfold sys_step in St1. destruct St1 as (E1 & C1 & St1).
  assert (I1 : get_inv w0 target w1) by eauto.
  destruct r as [mt| |].
  - destruct St1 as (f & Lf & ->). split; auto. intros now w2 St2. unfold sys_step in St2. destruct St2 as (E2 & C2 & ->).
    assert (I2 : get_inv w0 target w2) by eauto.
    cbn [pbind]. destruct (CacheMaxAge cfg <? Z.quot (clock w2 - f_mtime f) ns_per_minute)%Z eqn:K.
    + apply quot_age in K; auto.
      split; auto. intros ok w3 St3. unfold sys_step in St3. destruct St3 as (C3 & St3). destruct ok.
      * destruct St3 as [_ E3]. assert (N3 : content w3 target = None) by (unfold content; rewrite E3, lookup_delete_eq; auto).
        apply TC.
        -- destruct I2 as (A & B & D). split; [lia|]. split; [|auto]. intros p N. rewrite E3, lookup_delete_neq; auto.
        -- split; auto. right. exists f, (clock w2). repeat split; auto; lia.
      * destruct St3 as [X E3]. split; [eauto|]. destruct X as [X|X]; auto. fold target in X. rewrite E2, E1 in X. congruence.
    + assert (NO : ~ too_old cfg (f_mtime f) (clock w2)).
      { intros O. unfold too_old in O. apply quot_age in O; auto. congruence. }
      apply TC; auto. exists f, (clock w2). repeat split; auto; try lia.
      unfold content. rewrite E2, E1, Lf. auto.
  - split; auto. split; auto. unfold content. rewrite E1, St1; auto.
  - split; auto.
Qed.

(** ** Every call ends *)

Lemma answerable : forall w c, exists r w', sys_step false w c r w'.
Proof.
  intros w c; destruct c; unfold sys_step.
  - exists MkdirOk, w. repeat split; try lia; discriminate.
  - (* a fresh name *)
    assert (H : exists rnd, lookup [TempDirName; pattern ++ rnd] (files w) = None).
    { set (L := fold_right Nat.max 0 (map (fun f => List.length (concat (f_path f))) (files w))).
      exists (repeat "a"%char (S L)). apply lookup_none. intros X. apply in_map_iff in X as (f & Pf & Hf).
      assert (B : (List.length (concat (f_path f)) <= L)%nat).
      { unfold L. clear - Hf. induction (files w) as [|g fs IH]; [contradiction|]. simpl. destruct Hf as [->|Hf]; [lia|]. specialize (IH Hf); lia. }
      rewrite Pf in B. simpl in B. rewrite ?app_length, ?repeat_length in B. simpl in B. rewrite repeat_length in B. lia. }
    destruct H as [rnd H]. exists (Some [TempDirName; pattern ++ rnd]), (mkWorld (mkFile [TempDirName; pattern ++ rnd] [] (clock w) :: files w) (clock w)).
    split; [simpl; lia|]. exists rnd. auto.
  - exists true, (mkWorld (update tmp (fun f => mkFile (f_path f) (f_data f ++ chunk) (clock w)) (files w)) (clock w)). split; [simpl; lia|auto].
  - exists (Some (DirSizeInBytes (files w))), w. repeat split; lia.
  - destruct (lookup tmp (files w)) as [f|] eqn:E.
    + exists (Some (f_size f)), w. repeat split; try lia; eauto.
    + exists None, w. repeat split; try lia; auto.
  - destruct (lookup p (files w)) as [f|] eqn:E.
    + exists (Some (f_size f)), w. repeat split; try lia; eauto.
    + exists None, w. repeat split; try lia; auto.
  - eexists _, w. split; [auto|]. split; [lia|]. right. exists (files w). split; [apply Permutation_refl|reflexivity].
  - eexists _, w. split; [auto|]. split; [lia|]. right. exists (files w). split; [apply Permutation_refl|reflexivity].
  - destruct (lookup p (files w)) as [f|] eqn:E.
    + exists true, (mkWorld (delete p (files w)) (clock w)). split; [simpl; lia|]. split; [congruence|auto].
    + exists false, w. split; [lia|auto].
  - exists true, w. repeat split; try lia; discriminate.
  - destruct (lookup src (files w)) as [f|] eqn:E.
    + exists true, (mkWorld (mkFile dst (f_data f) (f_mtime f) :: delete dst (delete src (files w))) (clock w)). split; [simpl; lia|]. exists f; auto.
    + exists false, w. split; [lia|auto].
  - destruct (lookup p (files w)) as [f|] eqn:E.
    + exists (StatOk (f_mtime f)), w. repeat split; try lia; eauto.
    + exists StatNotExist, w. repeat split; try lia; auto.
  - exists (clock w), w. repeat split; lia.
  - destruct (lookup p (files w)) as [f|] eqn:E.
    + exists true, (mkWorld (update p (fun f => mkFile (f_path f) (f_data f) t) (files w)) (clock w)). split; [simpl; lia|]. split; [congruence|auto].
    + exists false, w. split; [lia|auto].
  - exists (content w p), w. repeat split; try lia. destruct (content w p); auto.
  - destruct (lookup p (files w)) as [f|] eqn:E.
    + exists true, w. repeat split; try lia. congruence.
    + exists false, w. repeat split; try lia. auto.
  - exists None, w. repeat split; try lia.
  - exists tt, w. repeat split; lia.
  - exists true, (mkWorld (mkFile dst [] (clock w) :: delete dst (files w)) (clock w)). split; [simpl; lia|]. exists []. auto.
  - exists true, (mkWorld (update p (fun f => mkFile (f_path f) [] (clock w)) (files w)) (clock w)). split; [simpl; lia|]. right. exists []. auto.
Qed.

Lemma every_prog_ends : forall {A} (p : prog A) w, exists r w', steps false p w (Ret r) w'.
Proof.
  intros A p; induction p as [a|c k IH]; intros w.
  - exists a, w. constructor.
  - destruct (answerable w c) as (r & w1 & S). destruct (IH r w1) as (x & w2 & H). exists x, w2. econstructor; eauto.
Qed.

(** ** Histories *)

Lemma history_complete : forall cfg w0 ops w p d, (0 <= CacheMaxAge cfg)%Z -> history cfg w0 ops w -> in_tmp p = false ->
  content w p = Some d ->
  content w0 p = Some d \/
  exists folder name chunks fuel, In (OpPut folder name chunks true fuel) ops /\ p = cache_path folder name /\ d = concat chunks.
Proof.
  intros cfg w0 ops w p d HA H T; revert d. induction H; intros d C.
  - auto.
  - pose proof (safe_inv _ _ _ _ _ (safe_steps _ _ _ _ _ _ _ H1 (GetFile_safe true cfg folder filename w HA))) as (_ & A & B).
    assert (C' : content w p = Some d).
    { destruct (path_eq_dec p (cache_path folder filename)) as [->|N].
      - destruct B as [B|B]; congruence.
      - unfold content in *. rewrite A in C; auto. }
    destruct (IHhistory d C') as [X|(a & b & c & e & X & Y)]; auto. right. exists a, b, c, e. split; auto. right; auto.
  - pose proof (safe_inv _ _ _ _ _ (safe_steps _ _ _ _ _ _ _ H1 (CacheToFile_complete true cfg fuel folder filename chunks readOk w H0)) p T) as X.
    destruct X as [X|[X|(X & Y & Z)]].
    + rewrite X in C. destruct (IHhistory d C) as [V|(a & b & c & e & V & U)]; auto. right. exists a, b, c, e. split; auto. right; auto.
    + congruence.
    + right. exists folder, filename, chunks, fuel. subst. split; [left; auto|]. split; auto. congruence.
  - apply IHhistory. rewrite <- C. unfold content. rewrite H0. f_equal. symmetry.
    unfold lookup, cached. clear - T. induction (files w) as [|f fs IH]; auto. simpl.
    destruct (path_eq_dec (f_path f) p) as [E|E].
    + rewrite E, T. simpl. rewrite E. destruct (path_eq_dec p p); [auto|congruence].
    + destruct (in_tmp (f_path f)); simpl; auto. destruct (path_eq_dec (f_path f) p); [congruence|auto].
Qed.

(** ** An executable scheduler for examples: no faults, the clock stands still *)

Definition answer (w : world) (c : syscall) : option (reply c * world) :=
  match c return option (reply c * world) with
  | SMkdirAll _ => Some (MkdirOk, w)
  | SCreateTemp pattern =>
    let p := [TempDirName; pattern ++ !"0"] in
    match lookup p (files w) with
    | None => Some (Some p, mkWorld (mkFile p [] (clock w) :: files w) (clock w))
    | Some _ => None
    end
  | SWrite tmp chunk => Some (true, mkWorld (update tmp (fun f => mkFile (f_path f) (f_data f ++ chunk) (clock w)) (files w)) (clock w))
  | SDirSize => Some (Some (DirSizeInBytes (files w)), w)
  | SFileSize tmp => Some (option_map f_size (lookup tmp (files w)), w)
  | SGetSize p => Some (option_map f_size (lookup p (files w)), w)
  | SFindLargest => Some (match FindLargestFile_walk None (files w) with
                          | Some f => FoundFile (f_size f) (f_path f) | None => FoundNothing end, w)
  | SFindLru => Some (match FindLruFile_walk None (files w) with
                      | Some f => FoundFile (f_size f) (f_path f) | None => FoundNothing end, w)
  | SRemove p => Some (match lookup p (files w) with Some _ => (true, mkWorld (delete p (files w)) (clock w)) | None => (false, w) end)
  | SClose _ => Some (true, w)
  | SRename src dst => Some (match lookup src (files w) with
      | Some f => (true, mkWorld (mkFile dst (f_data f) (f_mtime f) :: delete dst (delete src (files w))) (clock w))
      | None => (false, w) end)
  | SStat p => Some (match lookup p (files w) with Some f => StatOk (f_mtime f) | None => StatNotExist end, w)
  | SNow => Some (clock w, w)
  | SChtimes p t => Some (match lookup p (files w) with
      | Some _ => (true, mkWorld (update p (fun f => mkFile (f_path f) (f_data f) t) (files w)) (clock w))
      | None => (false, w) end)
  | SReadFile p => Some (content w p, w)
  | SExists p => Some (match lookup p (files w) with Some _ => true | None => false end, w)
  | SDo _ => Some (None, w)
  | SSleep _ => Some (tt, w)
  | SConvert _ _ => None
  | SRewrite _ => None
  end.

Lemma answer_step : forall w c r w', answer w c = Some (r, w') -> sys_step false w c r w'.
Proof.
  intros w c r w' H; destruct c; unfold answer in H; unfold sys_step;
    try (inversion H; subst; clear H; repeat split; auto; try lia; try discriminate; fail).
  - set (p := [TempDirName; pattern ++ !"0"]) in *. destruct (lookup p (files w)) eqn:E; [discriminate|].
    inversion H; subst. split; [simpl; lia|]. exists !"0". auto.
  - inversion H; subst; clear H. split; [simpl; lia|]. auto.
  - inversion H; subst; clear H. repeat split; try lia. destruct (lookup tmp (files w')); simpl; eauto.
  - inversion H; subst; clear H. repeat split; try lia. destruct (lookup p (files w')); simpl; eauto.
  - inversion H; subst; clear H. repeat split; try lia. right. exists (files w'). split; [apply Permutation_refl|auto].
  - inversion H; subst; clear H. repeat split; try lia. right. exists (files w'). split; [apply Permutation_refl|auto].
  - destruct (lookup p (files w)) eqn:E; inversion H; subst; clear H; (split; [simpl; lia|]); split; auto; congruence.
  - destruct (lookup src (files w)) as [f|] eqn:E; inversion H; subst; clear H; (split; [simpl; lia|]); eauto.
  - inversion H; subst; clear H. repeat split; try lia. destruct (lookup p (files w')) eqn:E; eauto.
  - destruct (lookup p (files w)) eqn:E; inversion H; subst; clear H; (split; [simpl; lia|]); split; auto; congruence.
  - inversion H; subst; clear H. repeat split; try lia. destruct (content w' p); auto.
  - inversion H; subst; clear H. repeat split; try lia. destruct (lookup p (files w')) eqn:E; auto; congruence.
Qed.

Fixpoint exec {A} (p : prog A) (w : world) : option (A * world) :=
  match p with
  | Ret a => Some (a, w)
  | Call c k => match answer w c with Some (r, w') => exec (k r) w' | None => None end
  end.

Lemma exec_ends : forall {A} (p : prog A) w r w', exec p w = Some (r, w') -> ends false p w r w'.
Proof.
  intros A p; induction p as [a|c k IH]; intros w r w' H; cbn [exec] in H.
  - inversion H; subst. constructor.
  - destruct (answer w c) as [[x w1]|] eqn:E; [|discriminate]. econstructor; [apply answer_step; eauto|]. apply IH; auto.
Qed.

Lemma sys_step_faulty : forall w c r w', sys_step false w c r w' -> sys_step true w c r w'.
Proof.
  intros w c r w' H; destruct c; unfold sys_step in *; try tauto;
    try (destruct H as (A & H); split; [exact A|]; destruct r; tauto).
Qed.

Lemma steps_faulty : forall {A} (p p' : prog A) w w', steps false p w p' w' -> steps true p w p' w'.
Proof. intros A p p' w w' H; induction H; [constructor|]. econstructor; [apply sys_step_faulty; eauto|auto]. Qed.

(** ** Statements in terms of the specification *)

Lemma cached_In : forall w f, In f (cached w) <-> In f (files w) /\ in_tmp (f_path f) = false.
Proof. intros w f. unfold cached. rewrite filter_In, negb_true_iff. tauto. Qed.

Lemma content_lookup_none : forall w p, content w p = None <-> lookup p (files w) = None.
Proof. intros w p; unfold content. destruct (lookup p (files w)); simpl; split; congruence. Qed.

Lemma CacheToFile_evicted_before : forall cfg fuel folder name chunks readOk w rest w' e k,
  CacheEvictionStrategy cfg <> StrategyNone -> wf w -> In folder cache_folders ->
  steps true (CacheToFile cfg fuel folder name chunks readOk) w rest w' ->
  evicted w w' e ->
  In k (cached w) -> In k (cached w') -> f_path k <> cache_path folder name ->
  evict_before (CacheEvictionStrategy cfg) e k.
Proof.
  intros cfg fuel folder name chunks readOk w rest w' e k ST W HF St [E1 E2] K1 K2 K3.
  pose proof (safe_inv _ _ _ _ _ (safe_steps _ _ _ _ _ _ _ St
    (CacheToFile_order true cfg w folder name fuel chunks readOk W HF ST))) as (_ & O & _).
  apply cached_In in E1, K1, K2. apply content_lookup_none in E2.
  apply (O e k); try tauto. split; tauto.
Qed.

Lemma other_size_tsum : forall w folder name, other_size w (cache_path folder name) = tsum (other folder name) (files w).
Proof.
  intros w folder name. unfold other_size, tsum, cached, other. f_equal.
  induction (files w) as [|f fs IH]; auto. simpl. unfold noT.
  destruct (in_tmp (f_path f)) eqn:T; simpl; [auto|].
  destruct (path_eq_dec (f_path f) (cache_path folder name)); simpl; rewrite IH; auto.
Qed.

Lemma CacheToFile_evicted_needed : forall cfg fuel folder name chunks readOk w rest w' g,
  CacheEvictionStrategy cfg <> StrategyNone -> wf w -> In folder cache_folders ->
  steps false (CacheToFile cfg fuel folder name chunks readOk) w rest w' ->
  evicted w w' g -> f_path g <> cache_path folder name ->
  exists e, In e (cached w) /\ (f_path e = cache_path folder name \/ content w' (f_path e) = None) /\
    (CacheMaxSize cfg <= other_size w' (cache_path folder name) + f_size e + temp_size w
                         + 2 * Z.of_nat (List.length (all_data chunks)))%Z.
Proof.
  intros cfg fuel folder name chunks readOk w rest w' g ST W HF St [G1 G2] G3.
  pose proof (safe_inv _ _ _ _ _ (safe_steps _ _ _ _ _ _ _ St
    (CacheToFile_order false cfg w folder name fuel chunks readOk W HF ST))) as (W' & _ & N).
  apply cached_In in G1 as [G1 G4]. apply content_lookup_none in G2.
  destruct (N eq_refl) as [X|(e & E1 & E2 & E3 & E4)].
  - exfalso. specialize (X g G1 G4 G3). apply lookup_none in G2. apply G2. apply in_map; auto.
  - exists e. rewrite cached_In, content_lookup_none. split; auto. split; auto.
    rewrite other_size_tsum. exact E4.
Qed.

Lemma tsum_sub : forall k fs gs, NoDup fs -> (forall f, In f fs -> k (f_path f) = true -> In f gs) -> (tsum k fs <= tsum k gs)%Z.
Proof.
  intros k fs; induction fs as [|f fs IH]; intros gs N H.
  - apply tsum_nonneg.
  - inversion N as [|? ? A B]; subst. rewrite tsum_cons. destruct (k (f_path f)) eqn:K.
    + destruct (in_split f gs) as (g1 & g2 & E); [apply H; [left; auto|auto]|].
      assert (X : tsum k gs = (f_size f + tsum k (g1 ++ g2))%Z).
      { rewrite E. clear - K. induction g1 as [|g g1 IH]; simpl app; rewrite !tsum_cons; [rewrite K; auto|]. rewrite IH. lia. }
      rewrite X. assert (tsum k fs <= tsum k (g1 ++ g2))%Z; [|lia]. apply IH; auto.
      intros h Hh Kh. assert (In h gs) by (apply H; [right; auto|auto]). rewrite E in H0. apply in_app_or in H0 as [Y|[Y|Y]].
      * apply in_or_app; auto.
      * subst; contradiction.
      * apply in_or_app; auto.
    + assert (tsum k fs <= tsum k gs)%Z; [|lia]. apply IH; auto. intros h Hh Kh. apply H; [right; auto|auto].
Qed.

Lemma CacheToFile_no_eviction : forall cfg fuel folder name chunks readOk w rest w' k,
  CacheEvictionStrategy cfg <> StrategyNone -> wf w -> In folder cache_folders ->
  (cache_size w + temp_size w + 2 * Z.of_nat (List.length (all_data chunks)) < CacheMaxSize cfg)%Z ->
  steps false (CacheToFile cfg fuel folder name chunks readOk) w rest w' ->
  In k (cached w) -> f_path k <> cache_path folder name ->
  content w' (f_path k) = Some (f_data k).
Proof.
  intros cfg fuel folder name chunks readOk w rest w' k ST W HF FIT St K1 K2.
  pose proof (CacheToFile_complete false cfg fuel folder name chunks readOk w HF) as SF.
  pose proof (safe_inv _ _ _ _ _ (safe_steps _ _ _ _ _ _ _ St SF)) as A. simpl in A.
  pose proof K1 as K1'. apply cached_In in K1' as [K3 K4].
  assert (KC : content w (f_path k) = Some (f_data k)) by (unfold content; rewrite (lookup_In (files w) k); auto).
  destruct (A (f_path k) K4) as [X|[X|(X & _)]]; [congruence| |congruence].
  exfalso.
  destruct (CacheToFile_evicted_needed cfg fuel folder name chunks readOk w rest w' k ST W HF St) as (e & E1 & E2 & E3); auto.
  { split; auto. }
  (* the other files in w' are files of w, without e *)
  pose proof (safe_inv _ _ _ _ _ (safe_steps _ _ _ _ _ _ _ St
    (CacheToFile_order false cfg w folder name fuel chunks readOk W HF ST))) as (W' & _ & N).
  assert (LE : (other_size w' (cache_path folder name) + f_size e <= cache_size w)%Z).
  { rewrite other_size_tsum, cache_size_tsum. apply cached_In in E1 as [E4 E5].
    (* compare via (path, size) *)
    assert (SUB : forall fs gs, NoDup (map f_path fs) -> NoDup (map f_path gs) ->
      (forall f, In f fs -> other folder name (f_path f) = true -> exists g, lookup (f_path f) gs = Some g /\ f_data g = f_data f /\ noT (f_path f) = true) ->
      (tsum (other folder name) fs <= tsum noT gs)%Z).
    { induction fs as [|f fs IH]; intros gs N1 N2 H; [apply tsum_nonneg|]. simpl in N1. inversion N1 as [|? ? Y1 Y2]; subst.
      rewrite tsum_cons. destruct (other folder name (f_path f)) eqn:O.
      - destruct (H f (or_introl eq_refl) O) as (g & L & D & NT).
        pose proof (tsum_delete_path noT gs (f_path f) N2 NT) as TD. unfold size_of in TD. rewrite L in TD.
        assert (tsum (other folder name) fs <= tsum noT (delete (f_path f) gs))%Z.
        { apply IH; auto; [apply NoDup_delete; auto|]. intros h Hh Oh. destruct (H h (or_intror Hh) Oh) as (g' & L' & D' & NT').
          exists g'. split; auto. rewrite lookup_delete_neq; auto. intros EQ. apply Y1. rewrite <- EQ. apply in_map; auto. }
        unfold f_size in *. rewrite D in TD. lia.
      - assert (tsum (other folder name) fs <= tsum noT gs)%Z; [|lia]. apply IH; auto.
        intros h Hh Oh. apply H; auto. right; auto. }
    assert (NTe : noT (f_path e) = true) by (unfold noT; rewrite E5; auto).
    pose proof (tsum_delete_path noT (files w) (f_path e) W NTe) as TD. unfold size_of in TD. rewrite (lookup_In (files w) e) in TD by auto.
    assert (tsum (other folder name) (files w') <= tsum noT (delete (f_path e) (files w)))%Z; [|lia].
    apply SUB; [exact W'|apply NoDup_delete; exact W|].
    intros f Hf Of. unfold other in Of. apply andb_true_iff in Of as [Of1 Of2].
    destruct (path_eq_dec (f_path f) (cache_path folder name)) as [EQ|NEQ]; [discriminate|].
    assert (Tf : in_tmp (f_path f) = false) by (unfold noT in Of1; apply negb_true_iff; auto).
    assert (Cf : content w' (f_path f) = Some (f_data f)) by (unfold content; rewrite (lookup_In (files w') f); auto).
    destruct (A (f_path f) Tf) as [Y|[Y|(Y & _)]]; [|congruence|congruence].
    rewrite Cf in Y. unfold content in Y. destruct (lookup (f_path f) (files w)) as [g|] eqn:L; [|discriminate]. simpl in Y.
    exists g. split; [|split; [congruence|auto]]. rewrite lookup_delete_neq; auto.
    intros EQ. destruct E2 as [E2|E2]; congruence. }
  unfold all_data in *. lia.
Qed.

Lemma CacheToFile_succeeds : forall cfg fuel folder name chunks w,
  CacheEvictionStrategy cfg <> StrategyNone -> wf w -> In folder cache_folders ->
  (temp_size w + 2 * Z.of_nat (List.length (all_data chunks)) < CacheMaxSize cfg)%Z ->
  List.length (cached w) <= fuel ->
  (exists r w', ends false (CacheToFile cfg fuel folder name chunks true) w r w') /\
  (forall r w', ends false (CacheToFile cfg fuel folder name chunks true) w r w' ->
     r = Ok tt /\ content w' (cache_path folder name) = Some (all_data chunks)).
Proof.
  intros cfg fuel folder name chunks w ST W HF FIT FU. split; [apply every_prog_ends|].
  intros r w' St.
  pose proof (safe_steps _ _ _ _ _ _ _ St (CacheToFile_order false cfg w folder name fuel chunks true W HF ST)) as [_ R].
  pose proof (safe_steps _ _ _ _ _ _ _ St (CacheToFile_complete false cfg fuel folder name chunks true w HF)) as [_ C].
  assert (NE : ~ excuse false cfg w fuel chunks true).
  { intros [X|[X|[X|X]]]; try discriminate; [lia|]. unfold temp_size, all_data, tsum in *. lia. }
  destruct r as [[]| | |]; simpl in R; try contradiction. split; auto. apply C.
Qed.

Lemma CacheToFile_none_succeeds : forall cfg fuel folder name chunks w,
  CacheEvictionStrategy cfg = StrategyNone -> wf w -> In folder cache_folders ->
  (exists r w', ends false (CacheToFile cfg fuel folder name chunks true) w r w') /\
  (forall r w', ends false (CacheToFile cfg fuel folder name chunks true) w r w' ->
     r = Ok tt /\ content w' (cache_path folder name) = Some (all_data chunks)).
Proof.
  intros cfg fuel folder name chunks w ST W HF. split; [apply every_prog_ends|].
  intros r w' St.
  pose proof (safe_steps _ _ _ _ _ _ _ St (CacheToFile_complete false cfg fuel folder name chunks true w HF)) as [_ C].
  assert (R : safe false (fun _ => True) (fun r _ => r = Ok tt) (CacheToFile cfg fuel folder name chunks true) w).
  { apply (CacheToFile_rule false cfg fuel folder name chunks true w (fun _ => True)
      (fun tmp d v => has_data tmp d v) (fun tmp v => lookup tmp (files v) <> None) (fun tmp r _ => r = Ok tt)); auto.
    - discriminate.
    - intros v rnd tmp Ln E. unfold has_data, content. rewrite E, lookup_cons. cbn [f_path]. destruct (path_eq_dec tmp tmp); [auto|congruence].
    - intros tmp d c v v' Ttmp D E. unfold has_data, content in *. rewrite E, lookup_update by auto.
      destruct (lookup tmp (files v)) as [f|]; simpl in *; [|discriminate].
      destruct (path_eq_dec tmp tmp); [|congruence]. simpl. congruence.
    - intros tmp d v _ _ [X|X]; discriminate.
    - intros tmp v Ttmp D _. unfold CacheToFile_evict. rewrite ST. split; [exact I|].
      unfold has_data, content in D. destruct (lookup tmp (files v)); [discriminate|simpl in D; discriminate].
    - intros tmp v Ttmp D. split; [exact I|]. intros ok v1 St1. unfold sys_step in St1. destruct St1 as (E1 & _ & X).
      destruct ok; [|specialize (X eq_refl); discriminate]. split; [exact I|].
      intros ok v2 St2. unfold sys_step in St2. destruct St2 as [_ St2]. split; [exact I|]. destruct ok; auto.
      destruct St2 as [[Y|Y] _]; [discriminate|]. rewrite E1 in Y. contradiction. }
  pose proof (safe_steps _ _ _ _ _ _ _ St R) as [_ X]. subst r. split; auto. apply C.
Qed.

Lemma GetFile_exact : forall cfg folder name w r w',
  (0 <= CacheMaxAge cfg)%Z ->
  ends false (GetFile cfg folder name) w r w' ->
  exists hit, r = Ok hit /\
  (hit = true -> exists f now,
     lookup (cache_path folder name) (files w) = Some f /\ (clock w <= now <= clock w')%Z /\
     (now - f_mtime f < (CacheMaxAge cfg + 1) * ns_per_minute)%Z /\
     content w' (cache_path folder name) = Some (f_data f)) /\
  (hit = false -> content w' (cache_path folder name) = None /\
     forall f, lookup (cache_path folder name) (files w) = Some f ->
       exists now, (clock w <= now <= clock w')%Z /\ ((CacheMaxAge cfg + 1) * ns_per_minute <= now - f_mtime f)%Z).
Proof.
  intros cfg folder name w r w' HA St.
  pose proof (safe_steps _ _ _ _ _ _ _ St (GetFile_safe false cfg folder name w HA)) as [_ P].
  destruct r as [hit| | |]; simpl in P; try contradiction; try discriminate.
  exists hit. split; auto. destruct hit.
  - split; [|discriminate]. intros _. destruct P as (f & now & A & B & C & D). exists f, now. unfold too_old in C. repeat split; auto; lia.
  - split; [discriminate|]. intros _. destruct P as [A B]. split; auto. intros f Lf.
    destruct B as [B|(g & now & B & C & D)]; [congruence|]. exists now. rewrite Lf in B. inversion B; subst. auto.
Qed.

Lemma GetFile_hit : forall cfg folder name w w',
  (0 <= CacheMaxAge cfg)%Z ->
  ends true (GetFile cfg folder name) w (Ok true) w' ->
  exists f now, lookup (cache_path folder name) (files w) = Some f /\ (clock w <= now <= clock w')%Z /\
    (now - f_mtime f < (CacheMaxAge cfg + 1) * ns_per_minute)%Z /\
    content w' (cache_path folder name) = Some (f_data f).
Proof.
  intros cfg folder name w w' HA St.
  pose proof (safe_steps _ _ _ _ _ _ _ St (GetFile_safe true cfg folder name w HA)) as [_ P]. simpl in P.
  destruct P as (f & now & A & B & C & D). exists f, now. unfold too_old in C. repeat split; auto; lia.
Qed.

Lemma GetFile_others : forall cfg folder name w rest w',
  (0 <= CacheMaxAge cfg)%Z ->
  steps true (GetFile cfg folder name) w rest w' ->
  (forall p, p <> cache_path folder name -> lookup p (files w') = lookup p (files w)) /\
  (content w' (cache_path folder name) = content w (cache_path folder name) \/
   content w' (cache_path folder name) = None).
Proof.
  intros cfg folder name w rest w' HA St.
  pose proof (safe_inv _ _ _ _ _ (safe_steps _ _ _ _ _ _ _ St (GetFile_safe true cfg folder name w HA))) as (_ & A & B). auto.
Qed.
