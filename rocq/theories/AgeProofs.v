(** * Proofs about the age of cached data *)

From Coq Require Import Ascii String.
From Coq Require Import List Arith ZArith Bool Lia Permutation.
From Verif Require Import GoStr GoStrFacts UtilModel CacheModel CacheSpec CacheProofs CacheProofs2 AgeSpec.
Import ListNotations.
Local Open Scope list_scope.

(** ** Writes *)

Section Put.
Variables (w0 : world) (target : path) (data : str).
Hypothesis solid : in_tmp target = false.

Definition new_file (w : world) (f : file) : Prop := f_path f = target /\ f_data f = data /\ (clock w0 <= f_mtime f <= clock w)%Z.
Definition stamped (w : world) : Prop := wf w /\ (clock w0 <= clock w)%Z /\
  forall f, In f (files w) -> in_tmp (f_path f) = false -> In f (files w0) \/ new_file w f.
Definition temp (tmp : path) (d : str) (w : world) : Prop := forall f, lookup tmp (files w) = Some f -> f_data f = d /\ (clock w0 <= f_mtime f <= clock w)%Z.
(** Nothing has been written. *)
Definition kept (w : world) : Prop := forall f, In f (files w) -> in_tmp (f_path f) = false -> In f (files w0).
(** The file has been written. *)
Definition replaced (w : world) : Prop := forall f, In f (files w) -> f_path f = target -> new_file w f.

Lemma new_later : forall w w' f, (clock w <= clock w')%Z -> new_file w f -> new_file w' f.
Proof. intros w w' f C (A & B & D). repeat split; auto; lia. Qed.

Lemma stamped_sub : forall w w', wf w' -> (forall f, In f (files w') -> In f (files w)) -> (clock w <= clock w')%Z -> stamped w -> stamped w'.
Proof.
  intros w w' W S C (_ & B & D). split; [auto|]. split; [lia|]. intros f I T. destruct (D f (S f I) T) as [H|H]; auto. right. eapply new_later; eauto.
Qed.

Lemma temp_sub : forall tmp d w w', wf w -> (forall f, In f (files w') -> In f (files w)) -> (clock w <= clock w')%Z -> temp tmp d w -> temp tmp d w'.
Proof.
  intros tmp d w w' W S C T f L. apply lookup_some in L as (I & <-). destruct (T f) as (A & B); [apply lookup_In; auto|]. split; auto. lia.
Qed.

Lemma kept_sub : forall w w', (forall f, In f (files w') -> In f (files w)) -> kept w -> kept w'.
Proof. intros w w' S K f I N. auto. Qed.

Lemma replaced_sub : forall w w', (forall f, In f (files w') -> In f (files w)) -> (clock w <= clock w')%Z -> replaced w -> replaced w'.
Proof. intros w w' S C R f I E. eapply new_later; eauto. Qed.

(** Calls that change no file, or remove one *)
Definition calm_call (c : syscall) : Prop :=
  match c with SMkdirAll _ | SDirSize | SFileSize _ | SGetSize _ | SFindLargest | SFindLru | SRemove _ | SClose _ => True | _ => False end.
Fixpoint calm {A} (p : prog A) : Prop := match p with Ret _ => True | Call c k => calm_call c /\ forall r, calm (k r) end.

Lemma calm_step : forall fl w c r w', calm_call c -> sys_step fl w c r w' -> wf w ->
  wf w' /\ (forall f, In f (files w') -> In f (files w)) /\ (clock w <= clock w')%Z.
Proof.
  intros fl w c r w' K H W. destruct c; try destruct K; unfold sys_step in H.
  all: try (destruct H as (E & C & _); unfold wf; rewrite E; repeat split; auto; fail).
  destruct H as (C & H). destruct r; destruct H as [_ E]; unfold wf; rewrite E; repeat split; auto.
  - apply NoDup_delete. exact W.
  - intros f I. apply delete_In in I. tauto.
Qed.

Lemma calm_bind : forall A C (p : prog A) (f : A -> prog C), calm p -> (forall a, calm (f a)) -> calm (pbind p f).
Proof. intros A C p f. induction p as [a|c k IH]; intros H F; cbn [pbind calm] in *; auto. destruct H. split; auto. Qed.

Lemma evict_calm : forall cfg fuel folder name tmp, calm (CacheToFile_evict cfg fuel folder name tmp).
Proof.
  intros cfg fuel folder name tmp. assert (D : forall fuel net cs, calm (evict_loop cfg fuel net cs)).
  { clear fuel. induction fuel as [|fuel IH]; intros net cs; cbn [evict_loop]; destruct (CacheMaxSize cfg <=? cs + net)%Z; cbn [calm]; auto.
    apply calm_bind; [|intros [z| | |]; cbn [calm]; auto].
    destruct (CacheEvictionStrategy cfg); unfold deleteLargestFileFromCache, deleteLruFileFromCache; cbn [calm calm_call]; auto; split; auto; intros [s p| |]; cbn [calm calm_call]; auto. }
  unfold CacheToFile_evict, deleteFilesFromCacheIfNeeded. destruct (CacheEvictionStrategy cfg); cbn [calm calm_call]; auto;
  (split; auto; intros [z|]; cbn [calm calm_call]; auto; split; auto; intros [y|]; cbn [calm calm_call]; auto; split; auto; intros r; apply D).
Qed.

Lemma calm_safe : forall A fl (P : world -> Prop) (p : prog A) w,
  (forall w w', P w -> wf w' -> (forall f, In f (files w') -> In f (files w)) -> (clock w <= clock w')%Z -> P w') -> (forall w, P w -> wf w) ->
  calm p -> P w -> safe fl P (fun _ => P) p w.
Proof.
  intros A fl P p w S W. revert w. induction p as [a|c k IH]; intros w C H; cbn [safe]; split; auto. intros r w' St. destruct C as (C & K).
  destruct (calm_step fl w c r w' C St (W w H)) as (X & Y & Z). apply IH; eauto.
Qed.

Lemma wf_update : forall w w' q g, (forall f, f_path (g f) = f_path f) -> files w' = update q g (files w) -> wf w -> wf w'.
Proof. intros w w' q g G E W. unfold wf. rewrite E, map_path_update; auto. Qed.

Lemma update_In : forall q g fs f, In f (update q g fs) -> exists f0, In f0 fs /\ ((f_path f0 = q /\ f = g f0) \/ (f_path f0 <> q /\ f = f0)).
Proof. intros q g fs f I. apply in_map_iff in I as (f0 & E & I). exists f0. split; auto. destruct (path_eq_dec (f_path f0) q); auto. Qed.

Lemma copy_safe : forall fl tmp readOk chunks d w, in_tmp tmp = true -> stamped w -> kept w -> temp tmp d w ->
  safe fl stamped (fun r w => stamped w /\ kept w /\ (r = Ok tt -> temp tmp (d ++ concat chunks) w)) (Copy tmp chunks readOk) w.
Proof.
  intros fl tmp readOk. induction chunks as [|c chunks IH]; intros d w T S K M; cbn [Copy safe concat]; split; auto.
  - split; auto. split; auto. intros _. rewrite app_nil_r. exact M.
  - intros r w' St. unfold sys_step in St. destruct St as (C & St).
    assert (U : forall x, files w' = update tmp (fun f => mkFile (f_path f) (f_data f ++ x) (clock w')) (files w) -> stamped w' /\ kept w' /\ temp tmp (d ++ x) w').
    { intros x E. split.
      - destruct S as (W & B & D). split; [eapply wf_update; [|exact E|exact W]; auto|]. split; [lia|]. intros f I N. rewrite E in I. apply update_In in I as (f0 & I & [(P & ->)|(P & ->)]); [cbn [f_path] in N; congruence|].
        destruct (D f0 I N) as [H|H]; [left; exact H|right; eapply new_later; [exact C|exact H]].
      - split; [intros f I N; rewrite E in I; apply update_In in I as (f0 & I & [(P & ->)|(P & ->)]); [cbn [f_path] in N; congruence|auto]|]. intros f L. rewrite E, lookup_update in L by auto. destruct (lookup tmp (files w)) as [f0|] eqn:L0; [|discriminate]. cbn [option_map] in L.
        destruct (path_eq_dec tmp tmp); [|contradiction]. destruct (M f0 L0) as (A & B). injection L as <-. cbn [f_data f_mtime]. rewrite A. split; auto. lia. }
    destruct r.
    + destruct (U c St) as (S' & K' & M'). specialize (IH (d ++ c) w' T S' K' M'). rewrite <- app_assoc in IH. exact IH.
    + destruct St as (_ & n & E). destruct (U _ E) as (S' & K' & _). cbn [safe]. split; auto. split; auto. split; auto. discriminate.
Qed.

Lemma move_safe : forall fl folder name tmp w, cache_path folder name = target -> in_tmp tmp = true -> stamped w -> kept w -> temp tmp data w ->
  safe fl stamped (fun r w => stamped w /\ (r = Ok tt -> replaced w) /\ (r <> Ok tt -> kept w)) (CacheToFile_move folder name tmp) w.
Proof.
  intros fl folder name tmp w T Tm S K M. unfold CacheToFile_move. rewrite T. cbn [safe]. split; auto. intros r w1 St. destruct (calm_step fl w (SClose tmp) r w1 I St (proj1 S)) as (W1 & F1 & C1).
  pose proof (stamped_sub w w1 W1 F1 C1 S) as S1. pose proof (temp_sub tmp data w w1 (proj1 S) F1 C1 M) as M1. pose proof (kept_sub w w1 F1 K) as K1.
  destruct r; cbn [safe]; [|split; auto; split; auto; split; auto; discriminate]. split; auto. intros r w2 St2. unfold sys_step in St2. destruct St2 as (C2 & St2). destruct r.
  - destruct St2 as (f & L & E). destruct (M1 f L) as (D & B).
    assert (N : new_file w2 (mkFile target (f_data f) (f_mtime f))) by (split; [reflexivity|split; [exact D|cbn [f_mtime]; lia]]).
    assert (S2 : stamped w2).
    { destruct S1 as (_ & B1 & D1). split; [|split; [lia|]].
      - unfold wf. rewrite E. cbn [map f_path]. constructor; [apply not_in_delete|]. apply NoDup_delete. apply NoDup_delete. exact W1.
      - intros g I K0. rewrite E in I. destruct I as [<-|I]; [auto|]. apply delete_In in I as (I & _). apply delete_In in I as (I & _). destruct (D1 g I K0) as [H|H]; [left; exact H|right; eapply new_later; [exact C2|exact H]]. }
    cbn [safe]. split; auto. split; auto. split; [|congruence]. intros _ g I P. rewrite E in I. destruct I as [<-|I]; [auto|]. apply delete_In in I as (_ & I). contradiction.
  - destruct St2 as (_ & E). cbn [safe]. assert (S2 : stamped w2) by (eapply stamped_sub; [| |exact C2|exact S1]; [unfold wf; rewrite E; exact W1|rewrite E; auto]). split; auto. split; auto. split; [discriminate|]. intros _. apply (kept_sub w1 w2); auto. rewrite E. auto.
Qed.

Lemma put_safe : forall fl cfg fuel folder name chunks readOk, cache_path folder name = target -> data = all_data chunks -> wf w0 ->
  safe fl stamped (fun r w => stamped w /\ (r = Ok tt -> replaced w) /\ (r <> Ok tt -> kept w)) (CacheToFile cfg fuel folder name chunks readOk) w0.
Proof.
  intros fl cfg fuel folder name chunks readOk T D W. assert (S0 : stamped w0) by (split; [auto|split; [lia|auto]]). assert (K0 : kept w0) by (intros f I _; exact I). unfold CacheToFile. cbn [safe]. split; auto. intros r w1 St.
  destruct (calm_step fl w0 (SMkdirAll folder) r w1 I St W) as (W1 & F1 & C1). pose proof (stamped_sub w0 w1 W1 F1 C1 S0) as S1. pose proof (kept_sub w0 w1 F1 K0) as K1.
  assert (E0 : safe fl stamped (fun r w => stamped w /\ (r = Ok tt -> replaced w) /\ (r <> Ok tt -> kept w)) (Ret Err) w1) by (cbn [safe]; split; auto; split; auto; split; auto; discriminate).
  assert (G : safe fl stamped (fun r w => stamped w /\ (r = Ok tt -> replaced w) /\ (r <> Ok tt -> kept w)) (Call (SCreateTemp (SanitizeFilename name)) (fun r => match r with
        | None => Ret Err
        | Some tmp => pbind (then_ok (Copy tmp chunks readOk) (then_ok (CacheToFile_evict cfg fuel folder name tmp) (CacheToFile_move folder name tmp)))
            (fun res => Call (SRemove tmp) (fun _ => Call (SClose tmp) (fun _ => Ret res))) end)) w1).
  { clear E0 St. cbn [safe]. split; auto. intros r2 w2 St. unfold sys_step in St. destruct St as (C2 & St). destruct r2 as [tmp|].
    - destruct St as (rnd & -> & L & E). set (tmp := [TempDirName; SanitizeFilename name ++ rnd]) in *. assert (Tm : in_tmp tmp = true) by apply in_tmp_temp.
      assert (S2 : stamped w2).
      { destruct S1 as (_ & B & Dx). split; [|split; [lia|]].
        - unfold wf. rewrite E. cbn [map f_path]. constructor; auto. apply lookup_none. exact L.
        - intros f I N. rewrite E in I. destruct I as [<-|I]; [cbn [f_path] in N; congruence|]. destruct (Dx f I N) as [H|H]; [left; exact H|right; eapply new_later; [exact C2|exact H]]. }
      assert (K2 : kept w2) by (intros f I N; rewrite E in I; destruct I as [<-|I]; [cbn [f_path] in N; congruence|apply K1; auto]).
      assert (M2 : temp tmp [] w2).
      { intros f Lf. rewrite E, lookup_cons in Lf. cbn [f_path] in Lf. destruct (path_eq_dec tmp tmp); [|contradiction]. injection Lf as <-. cbn [f_data f_mtime]. destruct S1 as (_ & B & _). split; auto. lia. }
      apply safe_bind. eapply (safe_mono fl stamped stamped (fun r w => stamped w /\ (r = Ok tt -> replaced w) /\ (r <> Ok tt -> kept w))); [auto| |].
      + intros r3 w IS (Sw & Rw & Kw). assert (Cm : calm (Call (SRemove tmp) (fun _ => Call (SClose tmp) (fun _ => @Ret (res unit) r3)))) by (cbn [calm calm_call]; repeat split).
        assert (Q : safe fl (fun w => stamped w /\ (r3 = Ok tt -> replaced w) /\ (r3 <> Ok tt -> kept w)) (fun _ w => stamped w /\ (r3 = Ok tt -> replaced w) /\ (r3 <> Ok tt -> kept w)) (Call (SRemove tmp) (fun _ => Call (SClose tmp) (fun _ => @Ret (res unit) r3))) w).
        { apply calm_safe; auto; [|intros v V; apply V]. intros v v' (V1 & V2 & V3) X Y Z. split; [eapply stamped_sub; eauto|]. split; [intros K; eapply replaced_sub; eauto|intros K; eapply kept_sub; eauto]. }
        clear - Q. cbn [safe] in *. destruct Q as (Q1 & Q). split; [tauto|]. intros a v St. specialize (Q a v St). destruct Q as (Q2 & Q). split; [tauto|]. intros b u St2. specialize (Q b u St2). tauto.
      + unfold then_ok at 1. apply safe_bind. eapply safe_mono; [| |apply (copy_safe fl tmp readOk chunks [] w2 Tm S2 K2 M2)]; [auto|].
        intros [[]| | |] w _ (Sw & Kw & Mw); try (cbn [safe]; split; auto; split; auto; split; auto; discriminate). specialize (Mw eq_refl). cbn [app] in Mw.
        unfold then_ok. apply safe_bind. assert (Q : safe fl (fun w => stamped w /\ kept w /\ temp tmp (concat chunks) w) (fun _ w => stamped w /\ kept w /\ temp tmp (concat chunks) w) (CacheToFile_evict cfg fuel folder name tmp) w).
        { apply calm_safe; auto; [|intros v V; apply V|apply evict_calm]. intros v v' (V1 & V3 & V2) X Y Z. split; [eapply stamped_sub; eauto|]. split; [eapply kept_sub; eauto|apply (temp_sub tmp (concat chunks) v v'); auto; apply V1]. }
        eapply safe_mono; [| |exact Q]; [intros v V; apply V|]. intros [[]| | |] v _ (V1 & V3 & V2); try (cbn [safe]; split; auto; split; auto; split; auto; discriminate).
        apply move_safe; auto. rewrite D. exact V2.
    - destruct St as (_ & E). cbn [safe]. assert (S2 : stamped w2) by (eapply stamped_sub; [| |exact C2|exact S1]; [unfold wf; rewrite E; exact W1|rewrite E; auto]). split; auto. split; auto. split; [discriminate|]. intros _. apply (kept_sub w1 w2); auto. rewrite E. auto. }
  destruct r; auto.
Qed.
End Put.

(** ** Lookups *)

Section Get.
Variables (cfg : cache_config) (w0 : world) (target : path).
Hypothesis solid : in_tmp target = false.

(** Only the time of the file changes, and only with the LRU strategy. *)
Definition used_file (w : world) (f : file) : Prop := CacheEvictionStrategy cfg = StrategyLru /\ f_path f = target /\
  (exists f0, In f0 (files w0) /\ f_path f0 = target /\ f_data f = f_data f0) /\ (clock w0 <= f_mtime f <= clock w)%Z.
Definition looked (w : world) : Prop := wf w /\ (clock w0 <= clock w)%Z /\ forall f, In f (files w) -> In f (files w0) \/ used_file w f.
Definition used (w : world) : Prop := CacheEvictionStrategy cfg = StrategyLru -> forall f, In f (files w) -> f_path f = target -> used_file w f.

Lemma used_later : forall w w' f, (clock w <= clock w')%Z -> used_file w f -> used_file w' f.
Proof. intros w w' f C (A & B & D & E). repeat split; auto; lia. Qed.

Lemma looked_sub : forall w w', wf w' -> (forall f, In f (files w') -> In f (files w)) -> (clock w <= clock w')%Z -> looked w -> looked w'.
Proof. intros w w' W S C (_ & B & D). split; [auto|]. split; [lia|]. intros f I. destruct (D f (S f I)) as [H|H]; auto. right. eapply used_later; eauto. Qed.

Lemma touch_safe : forall fl r w, looked w -> lookup target (files w) <> None \/ r <> Ok true ->
  safe fl looked (fun r w => looked w /\ (fl = false -> r = Ok true -> used w)) (touch cfg target r) w.
Proof.
  intros fl r w L X. unfold touch. destruct (CacheEvictionStrategy cfg) eqn:ST; cbn [safe]; try (split; auto; split; auto; intros _ _ Y; congruence).
  split; auto. intros now w1 St. unfold sys_step in St. destruct St as (E1 & C1 & ->).
  assert (L1 : looked w1) by (eapply looked_sub; [| |exact C1|exact L]; [unfold wf; rewrite E1; apply L|rewrite E1; auto]). split; auto.
  intros ok w2 St. unfold sys_step in St. destruct St as (C2 & St). destruct ok.
  - destruct St as (_ & E2). destruct L1 as (W1 & B1 & D1).
    assert (U : forall f0, In f0 (files w1) -> f_path f0 = target -> used_file w2 (mkFile (f_path f0) (f_data f0) (clock w1))).
    { intros f0 I P. split; [auto|]. split; [auto|]. cbn [f_data f_mtime]. split; [|lia]. destruct (D1 f0 I) as [H|(_ & _ & (g & G1 & G2 & G3) & _)]; [exists f0; auto|]. exists g. rewrite G3. auto. }
    assert (L2 : looked w2).
    { split; [eapply wf_update; [|exact E2|exact W1]; auto|]. split; [lia|]. intros f I. rewrite E2 in I. apply update_In in I as (f0 & I & [(P & ->)|(P & ->)]); [right; auto|].
      destruct (D1 f0 I) as [H|H]; auto. right. eapply used_later; eauto. }
    split; auto. split; auto. intros _ _ _ f I P. rewrite E2 in I. apply update_In in I as (f0 & I & [(P0 & ->)|(P0 & ->)]); [auto|contradiction].
  - destruct St as (K & E2). assert (L2 : looked w2) by (eapply looked_sub; [| |exact C2|exact L1]; [unfold wf; rewrite E2; apply L1|rewrite E2; auto]).
    split; auto. split; auto. intros -> ->. exfalso. destruct K as [K|K]; [discriminate|]. rewrite E1 in K. destruct X as [X|X]; contradiction.
Qed.

Lemma get_safe : forall fl folder name, cache_path folder name = target -> wf w0 ->
  safe fl looked (fun r w => looked w /\ (fl = false -> r = Ok true -> used w)) (GetFile cfg folder name) w0.
Proof.
  intros fl folder name T W. assert (L0 : looked w0) by (split; [auto|split; [lia|auto]]). unfold GetFile, isOutdated. rewrite T. cbn [pbind safe]. split; auto. intros r w1 St. unfold sys_step in St. destruct St as (E1 & C1 & St).
  assert (L1 : looked w1) by (eapply looked_sub; [| |exact C1|exact L0]; [unfold wf; rewrite E1; auto|rewrite E1; auto]).
  destruct r as [mt| |]; cbn [pbind safe]; try (split; auto; split; auto; discriminate).
  destruct St as (f & Lf & ->). split; auto. intros now w2 St. unfold sys_step in St. destruct St as (E2 & C2 & ->).
  assert (L2 : looked w2) by (eapply looked_sub; [| |exact C2|exact L1]; [unfold wf; rewrite E2; apply L1|rewrite E2; auto]).
  destruct (CacheMaxAge cfg <? Z.quot (clock w2 - f_mtime f) ns_per_minute)%Z.
  - cbn [safe]. split; auto. intros ok w3 St. destruct (calm_step fl w2 (SRemove target) ok w3 I St (proj1 L2)) as (W3 & F3 & C3). pose proof (looked_sub w2 w3 W3 F3 C3 L2) as L3.
    destruct ok; [apply touch_safe; auto; right; discriminate|]. cbn [safe]. split; auto. split; auto. discriminate.
  - apply touch_safe; auto. left. rewrite E2, E1, Lf. discriminate.
Qed.
End Get.
