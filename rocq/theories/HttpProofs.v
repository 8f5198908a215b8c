(** * Proofs about the HTTP model *)

From Coq Require Import Ascii String.
From Coq Require Import List Arith NArith ZArith Bool Lia.
From Verif Require Import GoStr GoStrFacts UtilModel CacheModel CacheSpec CacheProofs CacheProofs2 HttpModel HttpSpec.
Import ListNotations.
Local Open Scope list_scope.

(** ** Program logic with network trace *)

Fixpoint tsafe {A} (fl : bool) (I : list net_event -> world -> Prop) (Q : A -> list net_event -> world -> Prop)
    (p : prog A) (tr : list net_event) (w : world) : Prop :=
  I tr w /\
  match p with
  | Ret a => Q a tr w
  | Call c k => forall r w', sys_step fl w c r w' -> tsafe fl I Q (k r) (tr ++ event_of c r) w'
  end.

Lemma tsafe_inv : forall {A} fl I Q (p : prog A) tr w, tsafe fl I Q p tr w -> I tr w.
Proof. intros A fl I Q [a|c k] tr w H; apply H. Qed.

Lemma tsafe_steps : forall {A} fl I Q (p : prog A) w tr' p' w',
  tsteps fl p w tr' p' w' -> forall tr, tsafe fl I Q p tr w -> tsafe fl I Q p' (tr ++ tr') w'.
Proof.
  intros A fl I Q p w tr' p' w' H; induction H; intros tr0 S.
  - rewrite app_nil_r; auto.
  - rewrite app_assoc. apply IHtsteps. apply S; auto.
Qed.

Lemma tsafe_bind : forall {A C} fl I (Q : C -> list net_event -> world -> Prop) (p : prog A) (f : A -> prog C) tr w,
  tsafe fl I (fun a tr w => tsafe fl I Q (f a) tr w) p tr w -> tsafe fl I Q (pbind p f) tr w.
Proof.
  intros A C fl I Q p f; induction p as [a|c k IH]; intros tr w H; simpl in *.
  - destruct H; auto.
  - destruct H as [HI H]; split; auto.
Qed.

Lemma tsafe_mono : forall {A} fl (I I' : list net_event -> world -> Prop) (Q Q' : A -> list net_event -> world -> Prop) (p : prog A) tr w,
  (forall tr w, I tr w -> I' tr w) -> (forall a tr w, I tr w -> Q a tr w -> Q' a tr w) -> tsafe fl I Q p tr w -> tsafe fl I' Q' p tr w.
Proof.
  intros A fl I I' Q Q' p; induction p as [a|c k IH]; intros tr w HI HQ H; simpl in *; destruct H as [H1 H2]; split; auto.
Qed.

Lemma tsafe_on_ok : forall {A C} fl I (Q : res C -> list net_event -> world -> Prop) (p : prog (res A)) (f : A -> prog (res C)) tr w,
  tsafe fl I (fun r tr w => match r with Ok a => tsafe fl I Q (f a) tr w | Err => Q Err tr w | Panic => Q Panic tr w | OutOfFuel => Q OutOfFuel tr w end) p tr w ->
  tsafe fl I Q (on_ok p f) tr w.
Proof.
  intros A C fl I Q p f tr w H. unfold on_ok. apply tsafe_bind.
  eapply tsafe_mono; [| |exact H]; auto. intros [a| | |] tr1 w1 HI K; simpl; auto.
Qed.

(** Programs without network access *)
Fixpoint quiet {A} (p : prog A) : Prop :=
  match p with
  | Ret _ => True
  | Call c k => (forall r, event_of c r = []) /\ forall r, quiet (k r)
  end.

Lemma quiet_tsafe : forall {A} fl I Q (p : prog A) tr w, quiet p -> safe fl I Q p w ->
  tsafe fl (fun t w => t = tr /\ I w) (fun a t w => t = tr /\ Q a w) p tr w.
Proof.
  intros A fl I Q p; induction p as [a|c k IH]; intros tr w H S; simpl in *.
  - tauto.
  - destruct H as [E H], S as [S1 S2]. split; auto. intros r w' St. rewrite E, app_nil_r. apply IH; auto.
Qed.

Lemma quiet_bind : forall {A C} (p : prog A) (f : A -> prog C), quiet p -> (forall a, quiet (f a)) -> quiet (pbind p f).
Proof. intros A C p f; induction p as [a|c k IH]; simpl; intros H K; auto. destruct H; split; auto. Qed.

Lemma quiet_Copy : forall tmp chunks ok, quiet (Copy tmp chunks ok).
Proof. intros tmp chunks ok; induction chunks; simpl; auto. split; auto. intros []; simpl; auto. Qed.

Lemma quiet_evict_loop : forall cfg net fuel cs, quiet (evict_loop cfg fuel net cs).
Proof.
  intros cfg net fuel; induction fuel as [|fuel IH]; intros cs; cbn [evict_loop].
  - destruct (_ <=? _)%Z; simpl; auto.
  - destruct (_ <=? _)%Z; simpl; auto. apply quiet_bind.
    + destruct (CacheEvictionStrategy cfg); simpl; auto; split; auto; intros []; simpl; auto.
    + intros []; simpl; auto.
Qed.

Lemma quiet_CacheToFile : forall cfg fuel folder name chunks ok, quiet (CacheToFile cfg fuel folder name chunks ok).
Proof.
  intros cfg fuel folder name chunks ok. unfold CacheToFile. split; auto.
  assert (G : quiet (Call (SCreateTemp (SanitizeFilename name)) (fun r =>
        match r with
        | None => Ret Err
        | Some tmp =>
          pbind
            (then_ok (Copy tmp chunks ok)
               (then_ok (CacheToFile_evict cfg fuel folder name tmp)
                  (CacheToFile_move folder name tmp)))
            (fun res => Call (SRemove tmp) (fun _ => Call (SClose tmp) (fun _ => Ret res)))
        end))).
  { split; auto. intros [tmp|]; [|exact I]. apply quiet_bind.
    - unfold then_ok. apply quiet_bind; [apply quiet_Copy|]. intros [u| | |]; try exact I.
      apply quiet_bind.
      + unfold CacheToFile_evict.
        assert (X : quiet (Call SDirSize (fun r => match r with
          | None => Ret Err
          | Some cacheSize => Call (SFileSize tmp) (fun r => match r with
              | None => Ret Err
              | Some size => deleteFilesFromCacheIfNeeded cfg fuel folder name size cacheSize end) end))).
        { split; auto. intros [cs|]; [|exact I]. split; auto. intros [sz|]; [|exact I]. split; auto.
          intros r. apply quiet_evict_loop. }
        destruct (CacheEvictionStrategy cfg); auto. exact I.
      + intros [u2| | |]; try exact I. split; auto. intros []; [|exact I]. split; auto. intros r; exact I.
    - intros r. simpl; auto. }
  intros []; auto; exact I.
Qed.

Lemma quiet_GetFile : forall cfg folder name, quiet (GetFile cfg folder name).
Proof.
  intros cfg folder name. unfold GetFile, isOutdated.
  assert (T : forall p r, quiet (touch cfg p r)).
  { intros p r. unfold touch. destruct (CacheEvictionStrategy cfg); simpl; auto. }
  split; auto. intros [m| |]; try exact I. split; auto. intros now. cbn [pbind].
  destruct (_ <? _)%Z; auto. split; auto. intros []; auto. exact I.
Qed.

Lemma tsteps_steps : forall {A} fl (p p' : prog A) w tr w', tsteps fl p w tr p' w' -> steps fl p w p' w'.
Proof. intros A fl p p' w tr w' H; induction H; econstructor; eauto. Qed.

Lemma steps_tsteps : forall {A} fl (p p' : prog A) w w', steps fl p w p' w' -> exists tr, tsteps fl p w tr p' w'.
Proof.
  intros A fl p p' w w' H; induction H; [exists []; constructor|]. destruct IHsteps as [tr IH].
  exists (event_of c r ++ tr). econstructor; eauto.
Qed.

(** ** Waiting time *)

Lemma digits_val_spec : forall s acc, Forall (fun c => is_digit c = true) s ->
  digits_val acc s = Some (acc * 10 ^ Z.of_nat (List.length s) + decimal_value s)%Z.
Proof.
  induction s as [|c s IH]; intros acc F.
  - cbn [digits_val decimal_value List.length]. f_equal. change (Z.of_nat 0) with 0%Z. rewrite Z.pow_0_r. lia.
  - inversion F as [|? ? H1 H2]; subst. cbn [digits_val decimal_value List.length]. rewrite H1, IH by auto. f_equal.
    rewrite Nat2Z.inj_succ, Z.pow_succ_r by lia. unfold digit_value. ring.
Qed.

Lemma digits_val_some : forall s acc z, digits_val acc s = Some z -> Forall (fun c => is_digit c = true) s.
Proof.
  induction s as [|c s IH]; intros acc z H; [constructor|]. cbn [digits_val] in H. destruct (is_digit c) eqn:E; [|discriminate].
  constructor; eauto.
Qed.

Lemma decimal_nonneg : forall s, Forall (fun c => is_digit c = true) s -> (0 <= decimal_value s)%Z.
Proof.
  induction s as [|c s IH]; intros F; simpl; [lia|]. inversion F as [|? ? H1 H2]; subst. specialize (IH H2).
  assert (0 <= digit_value c)%Z.
  { unfold is_digit in H1. unfold digit_value. apply andb_true_iff in H1 as [A B]. apply N.leb_le in A. lia. }
  assert (0 <= 10 ^ Z.of_nat (List.length s))%Z by (apply Z.pow_nonneg; lia). nia.
Qed.

Lemma wait_time_spec : forall h n, wait_for h n -> wait_time h = n.
Proof.
  intros h n H. inversion H as [s D L E1 E2|s U E1 E2]; subst.
  - destruct D as [NE F]. unfold wait_time, atoi, atoi_raw. destruct h as [|c s]; [congruence|].
    inversion F as [|? ? H1 H2]; subst.
    assert (Ascii.eqb c "-" = false) by (apply Ascii.eqb_neq; intros ->; discriminate).
    assert (Ascii.eqb c "+" = false) by (apply Ascii.eqb_neq; intros ->; discriminate).
    rewrite H0, H3, digits_val_spec by auto. rewrite Z.mul_0_l, Z.add_0_l.
    pose proof (decimal_nonneg (c :: s) F). unfold in_int64.
    change (2 ^ 63)%Z with 9223372036854775808%Z in L.
    replace (-9223372036854775808 <=? decimal_value (c :: s))%Z with true by (symmetry; apply Z.leb_le; lia).
    replace (decimal_value (c :: s) <=? 9223372036854775807)%Z with true by (symmetry; apply Z.leb_le; lia). reflexivity.
  - unfold wait_time, atoi. destruct (atoi_raw h) as [z|] eqn:E; auto. exfalso.
    unfold atoi_raw in E. destruct h as [|c s]; [discriminate|].
    assert (DEC : forall t acc z, digits_val acc t = Some z -> t <> [] -> decimal t).
    { intros t acc z0 H0 H1. split; auto. eapply digits_val_some; eauto. }
    destruct (Ascii.eqb c "-") eqn:Em.
    + apply Ascii.eqb_eq in Em. subst c. destruct s as [|d s]; [discriminate|].
      destruct (digits_val 0 (d :: s)) as [v|] eqn:V; [|discriminate].
      destruct (U (d :: s)) as (_ & _ & X); [eapply DEC; eauto; discriminate|]. apply X; reflexivity.
    + destruct (Ascii.eqb c "+") eqn:Ep.
      * apply Ascii.eqb_eq in Ep. subst c. destruct s as [|d s]; [discriminate|].
        destruct (U (d :: s)) as (_ & X & _); [eapply DEC; eauto; discriminate|]. apply X; reflexivity.
      * destruct (U (c :: s)) as (X & _); [eapply DEC; eauto; discriminate|]. apply X; reflexivity.
Qed.

(** ** doRequest *)

(** What a request loop may have done so far *)
Definition throttling (q : request) (tr : list net_event) : Prop :=
  throttle_trace q tr \/
  (exists tr' r, tr = tr' ++ [Asked q (Some r)] /\ throttle_trace q tr' /\ throttled r) \/
  (exists tr' a, tr = tr' ++ [Asked q a] /\ throttle_trace q tr' /\ forall r, a = Some r -> ~ throttled r).

Lemma throttle_trace_app : forall q a b, throttle_trace q a -> throttle_trace q b -> throttle_trace q (a ++ b).
Proof. intros q a b H K; induction H; simpl; auto. constructor; auto. Qed.

(** For a request whose body can be sent again *)
Lemma doRequest_get : forall fl q (P : world -> Prop),
  q_body q = [] -> q_unread q = [] -> (forall w w', P w -> files w' = files w -> (clock w <= clock w')%Z -> P w') ->
  forall fuel n tr w, P w -> throttle_trace q tr -> List.length tr = 2 * n ->
  tsafe fl (fun tr w => P w /\ throttling q tr) (fun r tr w => P w /\ decided (n + fuel) q r tr) (doRequest fuel q) tr w.
Proof.
  intros fl q P QB QU HP fuel.
  assert (Eq : mkRequest (q_post q) (q_url q) (q_body q) [] = q) by (destruct q; simpl in *; congruence).
  induction fuel as [|fuel IH]; intros n tr w Pw T L; cbn [doRequest].
  - split; [split; auto; left; auto|]. split; auto. rewrite Nat.add_0_r. split; auto.
  - split; [split; auto; left; auto|]. intros a w1 St. unfold sys_step in St. destruct St as (E & C & _).
    assert (P1 : P w1) by eauto. cbn [event_of].
    destruct a as [r|].
    + destruct (a_status r =? 429)%Z eqn:E429.
      * apply Z.eqb_eq in E429. split.
        -- split; auto. right; left. exists tr, r. auto.
        -- intros u w2 St2. unfold sys_step in St2. destruct St2 as (E2 & C2). rewrite Eq.
           replace (n + S fuel) with (S n + fuel) by lia.
           apply IH; [eauto| |rewrite !app_length; cbn [List.length event_of]; lia].
           rewrite <- app_assoc. apply throttle_trace_app; auto. cbn [event_of app].
           constructor; [exact E429| |constructor]. intros m Hm. apply wait_time_spec; auto.
      * apply Z.eqb_neq in E429.
        assert (INV : throttling q (tr ++ [Asked q (Some r)])).
        { right; right. exists tr, (Some r). split; auto. split; auto. intros r0 X; inversion X; subst; auto. }
        destruct (a_status r =? 200)%Z eqn:E200; cbn [negb].
        -- apply Z.eqb_eq in E200. destruct (str_eqb (a_api_error r) []) eqn:EA; cbn [negb].
           ++ apply str_eqb_eq in EA. split; [auto|]. split; auto. exists tr. split; auto. split; auto. split; auto.
           ++ apply str_eqb_neq in EA. split; [auto|]. split; auto. exists tr, (Some r). split; auto. split; auto.
              intros r0 X; inversion X; subst. split; auto. intros [_ Y]; contradiction.
        -- apply Z.eqb_neq in E200. split; [auto|]. split; auto. exists tr, (Some r). split; auto. split; auto.
           intros r0 X; inversion X; subst. split; auto. intros [Y _]; contradiction.
    + split; [split; auto; right; right; exists tr, None; split; auto; split; auto; discriminate|].
      split; auto. exists tr, None. split; auto. split; auto. discriminate.
Qed.

Lemma tsafe_end : forall {A} fl I Q (p : prog A) w tr r w', tends fl p w tr r w' -> tsafe fl I Q p [] w -> Q r tr w'.
Proof. intros A fl I Q p w tr r w' St S. apply (tsafe_steps _ _ _ _ _ _ _ _ St) in S. apply S. Qed.

Lemma download_decided : forall fuel url w tr r w', tends true (download fuel url) w tr r w' ->
  decided fuel (get_request url) r tr /\ files w' = files w.
Proof.
  intros fuel url w tr r w' St.
  assert (X := doRequest_get true (get_request url) (fun w1 => files w1 = files w) eq_refl eq_refl
    ltac:(intros; congruence) fuel 0 [] w eq_refl (tt_nil _) eq_refl).
  apply (tsafe_end _ _ _ _ _ _ _ _ St) in X. simpl in X. tauto.
Qed.

Lemma tsteps_inv : forall {A} fl (p : prog A) w tr p' w', tsteps fl p w tr p' w' ->
  match p with
  | Ret a => p' = Ret a /\ tr = [] /\ w' = w
  | Call c k => (p' = Call c k /\ tr = [] /\ w' = w) \/
      exists x w1 tr', sys_step fl w c x w1 /\ tsteps fl (k x) w1 tr' p' w' /\ tr = event_of c x ++ tr'
  end.
Proof.
  intros A fl p w tr p' w' H; destruct H.
  - destruct p; auto.
  - right. exists r, w', tr. auto.
Qed.

Lemma tends_call : forall {A} fl c (k : reply c -> prog A) w tr r w', tends fl (Call c k) w tr r w' ->
  exists x w1 tr', sys_step fl w c x w1 /\ tends fl (k x) w1 tr' r w' /\ tr = event_of c x ++ tr'.
Proof. intros A fl c k w tr r w' H. apply tsteps_inv in H. destruct H as [(H & _)|H]; [discriminate|auto]. Qed.

Lemma tends_ret : forall {A} fl (a : A) w tr r w', tends fl (Ret a) w tr r w' -> r = a /\ tr = [] /\ w' = w.
Proof. intros A fl a w tr r w' H. apply tsteps_inv in H. destruct H as (H & ? & ?). inversion H; auto. Qed.

Lemma tends_bind : forall {A C} fl (p : prog A) (f : A -> prog C) w tr r w', tends fl (pbind p f) w tr r w' ->
  exists a w1 tr1 tr2, tends fl p w tr1 a w1 /\ tends fl (f a) w1 tr2 r w' /\ tr = tr1 ++ tr2.
Proof.
  intros A C fl p f; induction p as [a|c k IH]; intros w tr r w' H.
  - exists a, w, [], tr. split; [constructor|auto].
  - cbn [pbind] in H. apply tends_call in H as (x & w1 & tr' & S & H & ->).
    apply IH in H as (a & w2 & tr1 & tr2 & H1 & H2 & ->).
    exists a, w2, (event_of c x ++ tr1), tr2. split; [econstructor; eauto|]. split; auto. rewrite app_assoc; auto.
Qed.

(** A POST request is only sent once with its data. *)
Lemma post_once : forall fuel url data w tr r w', data <> [] ->
  tends true (PostFormEncoded (S fuel) url data) w tr r w' ->
  exists a tr', tr = Asked (post_request url data) a :: tr' /\
     match a with
     | Some a => (successful a /\ r = Ok a /\ tr' = []) \/
                 (throttled a /\ r = match fuel with 0 => OutOfFuel | _ => Err end) \/
                 (~ successful a /\ ~ throttled a /\ r = Err /\ tr' = [])
     | None => r = Err /\ tr' = []
     end.
Proof.
  intros fuel url data w tr r w' ND St. unfold PostFormEncoded in St. cbn [doRequest] in St.
  apply tends_call in St as (a & w1 & tr1 & S1 & St & ->). exists a, tr1. split; [reflexivity|].
  destruct a as [a|]; [|apply tends_ret in St; tauto].
  destruct (a_status a =? 429)%Z eqn:E429.
  - apply Z.eqb_eq in E429. right; left. split; auto.
    apply tends_call in St as (u & w2 & tr2 & S2 & St & ->). destruct fuel as [|fuel]; cbn [doRequest] in St.
    + apply tends_ret in St. tauto.
    + apply tends_call in St as (b & w3 & tr3 & S3 & St & ->). unfold sys_step in S3. destruct S3 as (_ & _ & S3).
      cbn [q_unread q_body] in S3. rewrite S3 in St by (destruct data; [congruence|discriminate]).
      apply tends_ret in St. tauto.
  - apply Z.eqb_neq in E429. destruct (a_status a =? 200)%Z eqn:E200; cbn [negb] in St.
    + apply Z.eqb_eq in E200. destruct (str_eqb (a_api_error a) []) eqn:EA; cbn [negb] in St; apply tends_ret in St as (-> & -> & _).
      * left. apply str_eqb_eq in EA. repeat split; auto.
      * right; right. apply str_eqb_neq in EA. repeat split; auto. intros [_ X]; auto.
    + apply Z.eqb_neq in E200. apply tends_ret in St as (-> & -> & _). right; right. repeat split; auto. intros [X _]; auto.
Qed.

(** ** DownloadAndCache *)

Lemma sys_step_clock : forall fl w c r w', sys_step fl w c r w' -> (clock w <= clock w')%Z.
Proof. intros fl w c r w' H; destruct c; unfold sys_step in H; tauto. Qed.

Lemma steps_clock : forall {A} fl (p p' : prog A) w w', steps fl p w p' w' -> (clock w <= clock w')%Z.
Proof. intros A fl p p' w w' H; induction H; [lia|]. apply sys_step_clock in H. lia. Qed.

Lemma safe_clock : forall {A} fl I Q (p : prog A) w t, (t <= clock w)%Z -> safe fl I Q p w ->
  safe fl (fun w => I w /\ (t <= clock w)%Z) (fun a w => Q a w /\ (t <= clock w)%Z) p w.
Proof.
  intros A fl I Q p; induction p as [a|c k IH]; intros w t T S; simpl in *.
  - tauto.
  - destruct S as [S1 S2]; split; auto. intros r w' St. apply IH; auto. apply sys_step_clock in St. lia.
Qed.

Definition dc_inv (cfg : cache_config) (q : request) (target : path) (w0 : world) (tr : list net_event) (w : world) : Prop :=
  (forall p, in_tmp p = false -> content w p = content w0 p \/ content w p = None \/
     (p = target /\ exists d, delivered q tr d /\ content w p = Some d)) /\
  ((forall a, In (Asked q (Some a)) tr -> ~ successful a) -> get_inv w0 target w) /\
  (throttling q tr).

Definition miss (cfg : cache_config) (fl : bool) (target : path) (w0 w : world) : Prop :=
  fl = true \/ lookup target (files w0) = None \/
  exists f now, lookup target (files w0) = Some f /\ (now <= clock w)%Z /\ outdated cfg f now.

Definition dc_post (cfg : cache_config) (fl : bool) (q : request) (target : path) (w0 : world)
    (r : res (path * bool)) (tr : list net_event) (w : world) : Prop :=
  match r with
  | Ok (p, false) => p = target /\ tr = [] /\ get_post cfg w0 target fl (Ok true) w
  | Ok (p, true) => p = target /\ miss cfg fl target w0 w /\ exists d, delivered q tr d /\ content w target = Some d
  | _ => miss cfg fl target w0 w
  end.

Lemma get_inv_content : forall w0 target w, get_inv w0 target w -> forall p, content w p = content w0 p \/ content w p = None.
Proof.
  intros w0 target w (_ & A & B) p. destruct (path_eq_dec p target) as [->|N]; auto.
  left. unfold content. rewrite A; auto.
Qed.

Lemma successful_not_throttled : forall a, successful a -> ~ throttled a.
Proof. intros a [H _] T. unfold throttled in T. rewrite T in H. discriminate. Qed.

Lemma throttle_trace_no_success : forall q tr a, throttle_trace q tr -> In (Asked q (Some a)) tr -> ~ successful a.
Proof.
  intros q tr a H; induction H; intros K; [destruct K|].
  destruct K as [K|[K|K]]; auto; [|discriminate]. inversion K; subst. intros S. eapply successful_not_throttled; eauto.
Qed.

Lemma miss_mono : forall cfg fl target w0 w w', (clock w <= clock w')%Z -> miss cfg fl target w0 w -> miss cfg fl target w0 w'.
Proof.
  intros cfg fl target w0 w w' C [H|[H|(f & now & A & B & D)]]; [left|right; left|right; right]; auto.
  exists f, now. split; auto. split; auto. lia.
Qed.

Lemma DownloadAndCache_safe : forall cfg fl efuel fuel url folder name w0,
  (0 <= CacheMaxAge cfg)%Z -> In folder cache_folders ->
  let target := cache_path folder name in
  let q := get_request url in
  tsafe fl (dc_inv cfg q target w0) (dc_post cfg fl q target w0) (DownloadAndCache cfg efuel fuel url folder name) [] w0.
Proof.
  intros cfg fl efuel fuel url folder name w0 HA HF target q. unfold DownloadAndCache.
  assert (GI : forall tr w, get_inv w0 target w -> throttling q tr -> dc_inv cfg q target w0 tr w).
  { intros tr w H T. split; [|split; auto]. intros p _. destruct (get_inv_content _ _ _ H p); auto. }
  apply tsafe_on_ok. eapply tsafe_mono; [| |apply quiet_tsafe; [apply quiet_GetFile|apply GetFile_safe; auto]].
  { intros tr w [-> H]. apply GI; auto. left; constructor. }
  intros r tr w [-> GIw] [_ P].
  destruct r as [[|]| | |]; cbn [get_post] in P; try contradiction.
  - (* cached *)
    split; [apply GI; auto; left; constructor|]. split; auto.
  - (* not cached *)
    destruct P as [CN MI].
    assert (M0 : miss cfg fl target w0 w).
    { destruct MI as [H|(f & now & A & B & D)]; [right; left; auto|]. right; right. exists f, now. split; auto. split; [lia|auto]. }
    clear CN MI. apply tsafe_on_ok.
    eapply tsafe_mono; [| |apply (doRequest_get fl q (fun w1 => get_inv w0 target w1 /\ miss cfg fl target w0 w1) eq_refl eq_refl)
      with (n := 0); [|split; auto|constructor|reflexivity]].
    + intros tr w1 [[H _] T]. apply GI; auto.
    + intros r tr w1 [[G1 M1] T1] [_ D]. destruct r as [a| | |]; cbn [decided] in D; try contradiction; try exact M1.
      destruct D as (tr' & -> & TT & SU).
      apply tsafe_on_ok.
      pose proof (quiet_tsafe fl _ _ _ (tr' ++ [Asked q (Some a)]) w1 (quiet_CacheToFile cfg efuel folder name (a_body a) (a_complete a))
        (safe_clock _ _ _ _ _ (clock w1) (Z.le_refl _) (CacheToFile_complete fl cfg efuel folder name (a_body a) (a_complete a) w1 HF))) as X.
      assert (IMP : forall tr w2, tr = tr' ++ [Asked q (Some a)] /\
         ((forall p, in_tmp p = false -> content w2 p = content w1 p \/ content w2 p = None \/
                (p = cache_path folder name /\ a_complete a = true /\ content w2 p = Some (concat (a_body a)))) /\ (clock w1 <= clock w2)%Z) ->
         dc_inv cfg q target w0 tr w2).
      { intros tr w2 [-> [H C2]]. split; [|split; auto].
        - intros p Tp. destruct (H p Tp) as [E|[E|(-> & CO & E)]]; auto.
          + rewrite E. destruct (get_inv_content _ _ _ G1 p); auto.
          + right; right. split; auto. eexists; split; [|exact E]. exists tr', a. repeat split; auto; apply SU.
        - intros NS. exfalso. apply (NS a); auto. apply in_app_iff; right; left; auto. }
      eapply tsafe_mono; [exact IMP| |exact X].
      intros r tr w2 I2 [-> [R2 C2]].
      assert (M2 : miss cfg fl target w0 w2) by (eapply miss_mono; eauto).
      destruct r as [u| | |]; try exact M2.
      split; [apply IMP; auto|]. destruct R2 as [CO R2]. split; auto. split; auto.
      eexists; split; [|exact R2]. exists tr', a. repeat split; auto; apply SU.
    + intros w1 w2 [(C1 & L1 & T1) M1] E C. split.
      * split; [lia|]. unfold content in *. rewrite E. auto.
      * eapply miss_mono; eauto.
  - left; exact P.
Qed.

(** ** Files are kept without eviction strategy *)

Lemma CacheToFile_keeps : forall fl cfg fuel folder name chunks readOk w0 p d,
  CacheEvictionStrategy cfg = StrategyNone -> In folder cache_folders -> in_tmp p = false -> content w0 p = Some d ->
  safe fl (fun w => content w p = Some d \/ (p = cache_path folder name /\ readOk = true /\ content w p = Some (concat chunks)))
    (fun _ _ => True) (CacheToFile cfg fuel folder name chunks readOk) w0.
Proof.
  intros fl cfg fuel folder name chunks readOk w0 p d ST HF Tp C0. set (target := cache_path folder name).
  assert (Tt : in_tmp target = false) by (apply in_tmp_cache_path; auto).
  assert (FS : forall w w', files w' = files w -> content w' p = content w p) by (intros; apply content_files; auto).
  apply (CacheToFile_rule fl cfg fuel folder name chunks readOk w0 _
    (fun tmp e w => content w p = Some d /\ has_data tmp e w)
    (fun tmp w => content w p = Some d /\ has_data tmp (concat chunks) w /\ readOk = true)
    (fun tmp r w => content w p = Some d \/ (p = target /\ readOk = true /\ content w p = Some (concat chunks)))
    (fun _ _ => True)).
  - intros w E. left. rewrite (FS w0 w E); auto.
  - auto.
  - intros w rnd tmp Ln E. assert (Ttmp : in_tmp tmp = true) by apply in_tmp_temp. split.
    + unfold content. rewrite E, lookup_cons. cbn [f_path]. destruct (path_eq_dec tmp p); [congruence|exact C0].
    + unfold has_data, content. rewrite E, lookup_cons. cbn [f_path]. destruct (path_eq_dec tmp tmp); [auto|congruence].
  - intros tmp e w _ [H _]. auto.
  - intros tmp e c w w' Ttmp [H D] E. split.
    + unfold content in *. rewrite E, lookup_update by auto.
      destruct (lookup p (files w)) as [f|]; simpl in *; [|discriminate].
      destruct (path_eq_dec p tmp); [congruence|auto].
    + unfold has_data, content in *. rewrite E, lookup_update by auto.
      destruct (lookup tmp (files w)) as [f|]; simpl in *; [|discriminate].
      destruct (path_eq_dec tmp tmp); [|congruence]. simpl. congruence.
  - intros tmp e w _ [H _] _. auto.
  - intros tmp w Ttmp [H D] RO. unfold CacheToFile_evict. rewrite ST. split; auto.
  - intros tmp w Ttmp (H & D & RO). split; auto. intros ok w1 St. unfold sys_step in St. destruct St as (E & _ & _).
    rewrite <- (FS w w1 E) in H. destruct ok; [|split; auto]. split; auto.
    intros ok w2 St2. unfold sys_step in St2. destruct St2 as [_ St2].
    assert (G : content w2 p = Some d \/ (p = target /\ readOk = true /\ content w2 p = Some (concat chunks))).
    { destruct ok; [|left; rewrite (FS w1 w2); tauto]. destruct St2 as (f & Lf & E2).
      unfold content. rewrite E2, lookup_cons. cbn [f_path]. fold target. destruct (path_eq_dec target p) as [<-|N].
      - right. split; auto. split; auto. simpl. unfold has_data, content in D. rewrite E in Lf. rewrite Lf in D. exact D.
      - left. rewrite !lookup_delete_neq; auto. congruence. }
    split; auto.
  - intros tmp r w w' Ttmp H E. split; auto.
    assert (SAME : content w' p = content w p).
    { destruct E as [E|E]; [apply content_files; auto|]. unfold content. rewrite E, lookup_delete_neq; [auto|congruence]. }
    rewrite SAME. auto.
Qed.

Lemma history_keeps : forall cfg w0 ops w p d, (0 <= CacheMaxAge cfg)%Z -> CacheEvictionStrategy cfg = StrategyNone ->
  history cfg w0 ops w -> in_tmp p = false -> content w0 p = Some d ->
  (forall folder name, In (OpGet folder name) ops -> cache_path folder name <> p) ->
  content w p = Some d \/
  exists folder name chunks fuel, In (OpPut folder name chunks true fuel) ops /\ p = cache_path folder name /\
    content w p = Some (all_data chunks).
Proof.
  intros cfg w0 ops w p d HA ST H Tp C0. induction H; intros NG.
  - auto.
  - destruct (GetFile_others cfg folder filename w p' w' HA H1) as [A _].
    assert (E : content w' p = content w p).
    { unfold content. rewrite A; auto. intros ->. apply (NG folder filename); [left; auto|auto]. }
    rewrite E. destruct IHhistory as [X|(fo & na & ch & fu & X & Y)]; auto.
    + intros fo na K. apply NG. right; auto.
    + right. exists fo, na, ch, fu. split; [right; auto|auto].
  - assert (IH : content w p = Some d \/ (exists folder name chunks fuel, In (OpPut folder name chunks true fuel) ops /\
      p = cache_path folder name /\ content w p = Some (all_data chunks))).
    { apply IHhistory. intros fo na K. apply NG. right; auto. }
    assert (KEEP : forall e, content w p = Some e -> content w' p = Some e \/
       (p = cache_path folder filename /\ readOk = true /\ content w' p = Some (concat chunks))).
    { intros e Ce. apply (safe_inv _ _ _ _ _ (safe_steps _ _ _ _ _ _ _ H1
        (CacheToFile_keeps true cfg fuel folder filename chunks readOk w p e ST H0 Tp Ce))). }
    assert (NEW : p = cache_path folder filename /\ readOk = true /\ content w' p = Some (concat chunks) ->
      exists fo na ch fu, In (OpPut fo na ch true fu) (OpPut folder filename chunks readOk fuel :: ops) /\
      p = cache_path fo na /\ content w' p = Some (all_data ch)).
    { intros (-> & -> & X). exists folder, filename, chunks, fuel. split; [left; auto|auto]. }
    destruct IH as [X|(fo & na & ch & fu & X & Y & Z)].
    + destruct (KEEP _ X) as [K|K]; auto.
    + destruct (KEEP _ Z) as [K|K]; auto. right. exists fo, na, ch, fu. split; [right; auto|auto].
  - assert (E : content w' p = content w p).
    { unfold content. rewrite H0. f_equal. unfold cached. clear - Tp. induction (files w) as [|f fs IH]; auto.
      simpl. unfold lookup in *. destruct (in_tmp (f_path f)) eqn:T; simpl.
      - destruct (path_eq_dec (f_path f) p); [congruence|auto].
      - destruct (path_eq_dec (f_path f) p); auto. }
    rewrite E. auto.
Qed.

(** ** Image sources *)

Lemma quiet_tends : forall {A} fl (p : prog A) w tr r w', quiet p -> tends fl p w tr r w' -> tr = [].
Proof.
  intros A fl p; induction p as [a|c k IH]; intros w tr r w' Q H.
  - apply tends_ret in H. tauto.
  - apply tends_call in H as (x & w1 & tr' & _ & H & ->). destruct Q as [E Q]. rewrite E. eapply IH; eauto.
Qed.

Lemma tends_on_ok : forall {A C} fl (p : prog (res A)) (f : A -> prog (res C)) w tr r w',
  tends fl (on_ok p f) w tr r w' ->
  (exists a w1 tr1 tr2, tends fl p w tr1 (Ok a) w1 /\ tends fl (f a) w1 tr2 r w' /\ tr = tr1 ++ tr2) \/
  (tends fl p w tr (match r with Ok _ => Err | Err => Err | Panic => Panic | OutOfFuel => OutOfFuel end) w' /\ forall a, r <> Ok a).
Proof.
  intros A C fl p f w tr r w' H. apply tends_bind in H as (a & w1 & tr1 & tr2 & H1 & H2 & ->).
  destruct a as [a| | |].
  - left. exists a, w1, tr1, tr2. auto.
  - apply tends_ret in H2 as (-> & -> & ->). right. rewrite app_nil_r. split; auto. discriminate.
  - apply tends_ret in H2 as (-> & -> & ->). right. rewrite app_nil_r. split; auto. discriminate.
  - apply tends_ret in H2 as (-> & -> & ->). right. rewrite app_nil_r. split; auto. discriminate.
Qed.

Lemma requested_app : forall a b, requested (a ++ b) = requested a ++ requested b.
Proof. intros a b. unfold requested. apply flat_map_app. Qed.

Lemma throttle_requested : forall q tr, throttle_trace q tr -> Forall (eq (q_url q)) (requested tr).
Proof. intros q tr H; induction H; cbn; auto. Qed.

Lemma decided_requested : forall fuel q r tr, decided fuel q r tr -> Forall (eq (q_url q)) (requested tr).
Proof.
  intros fuel q r tr H. destruct r; cbn in H; try contradiction.
  - destruct H as (tr' & -> & T & _). rewrite requested_app. apply Forall_app; split; [apply throttle_requested; auto|repeat constructor].
  - destruct H as (tr' & a & -> & T & _). rewrite requested_app. apply Forall_app; split; [apply throttle_requested; auto|repeat constructor].
  - apply throttle_requested; tauto.
Qed.

Lemma DownloadAndCache_requested : forall fl cfg efuel fuel url folder name w tr r w',
  tends fl (DownloadAndCache cfg efuel fuel url folder name) w tr r w' -> Forall (eq url) (requested tr).
Proof.
  intros fl cfg efuel fuel url folder name w tr r w' H. unfold DownloadAndCache in H.
  apply tends_on_ok in H as [(hit & w1 & tr1 & tr2 & H1 & H2 & ->)|[H _]].
  2: { apply quiet_tends in H; [subst; constructor|apply quiet_GetFile]. }
  apply quiet_tends in H1; [|apply quiet_GetFile]. subst tr1. cbn [app].
  destruct hit; [apply tends_ret in H2 as (_ & -> & _); constructor|].
  assert (DL : forall fl w tr r w', tends fl (download fuel url) w tr r w' -> Forall (eq url) (requested tr)).
  { intros fl0 v t x v' St.
    assert (X := doRequest_get fl0 (get_request url) (fun _ => True) eq_refl eq_refl
      ltac:(intros; exact I) fuel 0 [] v I (tt_nil _) eq_refl).
    apply (tsafe_end _ _ _ _ _ _ _ _ St) in X. destruct X as [_ X]. apply decided_requested in X. exact X. }
  apply tends_on_ok in H2 as [(a & w2 & tr3 & tr4 & H2 & H3 & ->)|[H2 _]]; [|eapply DL; eauto].
  rewrite requested_app. apply Forall_app; split; [eapply DL; eauto|].
  apply tends_on_ok in H3 as [(u & w3 & tr5 & tr6 & H3 & H4 & ->)|[H3 _]].
  - apply quiet_tends in H3; [|apply quiet_CacheToFile]. apply tends_ret in H4 as (_ & -> & _). subst. constructor.
  - apply quiet_tends in H3; [|apply quiet_CacheToFile]. subst. constructor.
Qed.

Section Images.
  Variable ext : externals.
  Variable cfg : cache_config.
  Variable wiki : wiki_config.
  Variables efuel fuel : nat.

  Lemma quiet_rescale : forall p fresh, quiet (rescale wiki p fresh).
  Proof.
    intros p fresh. unfold rescale. destruct (_ && _)%bool; [|exact I]. split; auto. intros []; exact I.
  Qed.

  Lemma quiet_postProcessImage : forall p fresh, quiet (postProcessImage wiki p fresh).
  Proof.
    intros p fresh. unfold postProcessImage. destruct (_ || _)%bool; [|apply quiet_rescale].
    split; auto. intros []; [apply quiet_rescale|]. split; auto. intros []; [apply quiet_rescale|exact I].
  Qed.

  Lemma try_sources_order : forall fl image hosts e w tr r w',
    tends fl (try_sources ext cfg wiki efuel fuel image e hosts) w tr r w' ->
    r = Ok tt \/ r = Err ->
    exists o w1,
      asked_in_order fl (fun host => downloadImage ext cfg wiki efuel fuel host image) hosts w tr o w1 /\
      match o with
      | Some (p, fresh) => tends fl (postProcessImage wiki p fresh) w1 [] r w'
      | None => w' = w1 /\ r = (if e then Err else match hosts with [] => Ok tt | _ => Err end)
      end.
  Proof.
    intros fl image hosts; induction hosts as [|host hosts IH]; intros e w tr r w' H R; cbn [try_sources] in H.
    - apply tends_ret in H as (-> & -> & ->). exists None, w. split; [constructor|]. destruct e; auto.
    - apply tends_bind in H as (a & w1 & tr1 & tr2 & H1 & H2 & ->). destruct a as [[p fresh]| | |].
      + pose proof (quiet_tends _ _ _ _ _ _ (quiet_postProcessImage p fresh) H2) as ->. rewrite app_nil_r.
        exists (Some (p, fresh)), w1. split; auto. constructor; auto.
      + apply IH in H2 as (o & w2 & A & B); auto. exists o, w2. split; [eapply host_fails; eauto|].
        destruct o as [[p fresh]|]; auto. destruct B as [-> ->]. split; auto. destruct e; auto.
      + apply tends_ret in H2 as (-> & _). destruct R; discriminate.
      + apply tends_ret in H2 as (-> & _). destruct R; discriminate.
  Qed.

  Lemma DownloadArticle_requested : forall fl host title w tr r w',
    tends fl (DownloadArticle ext cfg efuel fuel host title) w tr r w' ->
    Forall (eq (article_url ext host title)) (requested tr).
  Proof.
    intros fl host title w tr r w' H. unfold DownloadArticle in H.
    apply tends_on_ok in H as [([p b] & w1 & tr1 & tr2 & H1 & H2 & ->)|[H _]].
    - apply DownloadAndCache_requested in H1. rewrite requested_app. apply Forall_app; split; auto.
      apply quiet_tends in H2; [subst; constructor|]. split; auto. intros [d|]; [|exact I].
      destruct (json_article_title ext d); exact I.
    - eapply DownloadAndCache_requested; eauto.
  Qed.

  Lemma downloadImage_requested : forall fl host image w tr r w',
    tends fl (downloadImage ext cfg wiki efuel fuel host image) w tr r w' ->
    Forall (fun url => starts_with (!"https://" ++ host ++ !"/w/api.php?") url \/
                       starts_with (!"https://" ++ wikipediaImageHost wiki ++ !"/wikipedia/") url) (requested tr).
  Proof.
    intros fl host image w tr r w' H. unfold downloadImage in H.
    destruct (after_colon image) as [n| | |]; try (apply tends_ret in H as (_ & -> & _); constructor).
    assert (ART : forall w tr r w', tends fl (DownloadArticle ext cfg efuel fuel host (!"File:" ++ n)) w tr r w' ->
      Forall (fun url => starts_with (!"https://" ++ host ++ !"/w/api.php?") url \/
                       starts_with (!"https://" ++ wikipediaImageHost wiki ++ !"/wikipedia/") url) (requested tr)).
    { intros v t x v' K. apply DownloadArticle_requested in K. eapply Forall_impl; [|exact K]. intros u <-. left.
      unfold article_url. eexists. rewrite <- !app_assoc. cbn [app]. reflexivity. }
    apply tends_on_ok in H as [([t x] & w1 & tr1 & tr2 & H1 & H2 & ->)|[H _]]; [|eapply ART; eauto].
    rewrite requested_app. apply Forall_app; split; [eapply ART; eauto|]. clear H1.
    destruct (after_colon (!"File:" ++ n)) as [o| | |]; try (apply tends_ret in H2 as (_ & -> & _); constructor).
    destruct (after_colon t) as [y| | |]; try (apply tends_ret in H2 as (_ & -> & _); constructor).
    assert (IMG : forall w tr r w' file, tends fl (DownloadAndCache cfg efuel fuel (image_url ext wiki host (replace_all !" " !"_" y)) ImageCacheDirName file) w tr r w' ->
      Forall (fun url => starts_with (!"https://" ++ host ++ !"/w/api.php?") url \/
                       starts_with (!"https://" ++ wikipediaImageHost wiki ++ !"/wikipedia/") url) (requested tr)).
    { intros v tt0 x0 v' file K. apply DownloadAndCache_requested in K. eapply Forall_impl; [|exact K]. intros u <-. right.
      unfold image_url. eexists. rewrite <- !app_assoc. cbn [app]. reflexivity. }
    apply tends_on_ok in H2 as [([p b] & w2 & tr3 & tr4 & H2 & H3 & ->)|[H2 _]]; [|eapply IMG; eauto].
    rewrite requested_app. apply Forall_app; split; [eapply IMG; eauto|].
    apply quiet_tends in H3; [subst; constructor|]. destruct (_ && _)%bool; [|exact I]. split; auto. intros; exact I.
  Qed.
End Images.

(** ** Execution with a given server *)

Definition answer_net (s : server) (w : world) (c : syscall) : option (reply c * world) :=
  match c return option (reply c * world) with
  | SDo q => Some (if (List.length (q_unread q) =? List.length (q_body q))%nat then s (q_url q) else None, w)
  | SSleep n => Some (tt, mkWorld (files w) (clock w + Z.max 0 n))
  | c => answer w c
  end.

Fixpoint exec_net {A} (s : server) (p : prog A) (w : world) : option (A * list net_event * world) :=
  match p with
  | Ret a => Some (a, [], w)
  | Call c k =>
    match answer_net s w c with
    | Some (r, w') =>
      match exec_net s (k r) w' with
      | Some (a, tr, w'') => Some (a, event_of c r ++ tr, w'')
      | None => None
      end
    | None => None
    end
  end.

Lemma exec_net_tends : forall {A} s (p : prog A) w r tr w', exec_net s p w = Some (r, tr, w') -> tends false p w tr r w'.
Proof.
  intros A s p; induction p as [a|c k IH]; intros w r tr w' H; cbn [exec_net] in H.
  - inversion H; subst. constructor.
  - destruct (answer_net s w c) as [[x w1]|] eqn:E; [|discriminate].
    destruct (exec_net s (k x) w1) as [[[a t] w2]|] eqn:E2; [|discriminate]. inversion H; subst.
    econstructor; [|apply IH; eauto]. destruct c; try (apply answer_step; exact E).
    + unfold answer_net in E. destruct (_ =? _)%nat eqn:L; inversion E; subst; unfold sys_step; repeat split; try lia.
      apply Nat.eqb_eq in L. congruence.
    + unfold answer_net in E. inversion E; subst. unfold sys_step; simpl. split; auto. lia.
Qed.

(** ** Statements in terms of the specification *)

Lemma DownloadAndCache_any_state : forall cfg efuel fuel url folder name w tr rest w',
  (0 <= CacheMaxAge cfg)%Z -> In folder cache_folders ->
  tsteps true (DownloadAndCache cfg efuel fuel url folder name) w tr rest w' ->
  forall p, in_tmp p = false -> content w' p = content w p \/ content w' p = None \/
    (p = cache_path folder name /\ exists d, delivered (get_request url) tr d /\ content w' p = Some d).
Proof.
  intros cfg efuel fuel url folder name w tr rest w' HA HF St.
  pose proof (tsafe_steps _ _ _ _ _ _ _ _ St [] (DownloadAndCache_safe cfg true efuel fuel url folder name w HA HF)) as X.
  apply tsafe_inv in X. apply X.
Qed.

Lemma DownloadAndCache_failed : forall cfg efuel fuel url folder name w tr rest w',
  (0 <= CacheMaxAge cfg)%Z -> In folder cache_folders ->
  tsteps true (DownloadAndCache cfg efuel fuel url folder name) w tr rest w' ->
  (forall q a, In (Asked q (Some a)) tr -> ~ successful a) ->
  (forall p, p <> cache_path folder name -> lookup p (files w') = lookup p (files w)) /\
  (content w' (cache_path folder name) = content w (cache_path folder name) \/ content w' (cache_path folder name) = None).
Proof.
  intros cfg efuel fuel url folder name w tr rest w' HA HF St NS.
  pose proof (tsafe_steps _ _ _ _ _ _ _ _ St [] (DownloadAndCache_safe cfg true efuel fuel url folder name w HA HF)) as X.
  apply tsafe_inv in X. destruct X as (_ & X & _). destruct X as (_ & A & B); auto. intros a Ha. eapply NS; eauto.
Qed.

Lemma DownloadAndCache_hit : forall cfg efuel fuel url folder name w tr p w',
  (0 <= CacheMaxAge cfg)%Z -> In folder cache_folders ->
  tends true (DownloadAndCache cfg efuel fuel url folder name) w tr (Ok (p, false)) w' ->
  p = cache_path folder name /\ tr = [] /\
  exists f now, lookup p (files w) = Some f /\ (clock w <= now <= clock w')%Z /\ ~ outdated cfg f now /\
    content w' p = Some (f_data f).
Proof.
  intros cfg efuel fuel url folder name w tr p w' HA HF St.
  pose proof (tsafe_end _ _ _ _ _ _ _ _ St (DownloadAndCache_safe cfg true efuel fuel url folder name w HA HF)) as X.
  destruct X as (-> & -> & X). split; auto.
Qed.

Lemma DownloadAndCache_fresh : forall cfg efuel fuel url folder name w tr p w',
  (0 <= CacheMaxAge cfg)%Z -> In folder cache_folders ->
  tends true (DownloadAndCache cfg efuel fuel url folder name) w tr (Ok (p, true)) w' ->
  p = cache_path folder name /\ exists d, delivered (get_request url) tr d /\ content w' p = Some d.
Proof.
  intros cfg efuel fuel url folder name w tr p w' HA HF St.
  pose proof (tsafe_end _ _ _ _ _ _ _ _ St (DownloadAndCache_safe cfg true efuel fuel url folder name w HA HF)) as X.
  destruct X as (-> & _ & X). split; auto.
Qed.

Lemma DownloadAndCache_cached : forall cfg efuel fuel url folder name w f tr r w',
  (0 <= CacheMaxAge cfg)%Z -> In folder cache_folders ->
  lookup (cache_path folder name) (files w) = Some f ->
  tends false (DownloadAndCache cfg efuel fuel url folder name) w tr r w' -> ~ outdated cfg f (clock w') ->
  r = Ok (cache_path folder name, false) /\ tr = [].
Proof.
  intros cfg efuel fuel url folder name w f tr r w' HA HF L St NO.
  pose proof (tsafe_end _ _ _ _ _ _ _ _ St (DownloadAndCache_safe cfg false efuel fuel url folder name w HA HF)) as X.
  assert (M : ~ miss cfg false (cache_path folder name) w w').
  { intros [H|[H|(f' & now & A & B & D)]]; try congruence. rewrite L in A. inversion A; subst f'.
    apply NO. unfold outdated in *. lia. }
  destruct r as [[p []]| | |]; cbn [dc_post] in X; try tauto. destruct X as (-> & -> & _). auto.
Qed.

Lemma DownloadAndCache_never_panics : forall cfg efuel fuel url folder name w tr r w',
  (0 <= CacheMaxAge cfg)%Z -> In folder cache_folders ->
  tends false (DownloadAndCache cfg efuel fuel url folder name) w tr r w' ->
  (exists q a, In (Asked q a) tr) \/ r = Ok (cache_path folder name, false) \/ fuel = 0.
Proof.
  intros cfg efuel fuel url folder name w tr r w' HA HF St. unfold DownloadAndCache in St.
  apply tends_on_ok in St as [(hit & w1 & tr1 & tr2 & H1 & H2 & ->)|[H NR]].
  - destruct hit; [apply tends_ret in H2 as (-> & _); auto|].
    destruct fuel as [|fuel]; [auto|]. left. unfold on_ok at 1, download in H2. cbn [doRequest pbind] in H2.
    apply tends_call in H2 as (a & w2 & tr3 & _ & _ & ->). exists (get_request url), a. apply in_app_iff; right; left; auto.
  - exfalso. apply tsteps_steps in H. apply GetFile_exact in H as (hit & H & _); auto. destruct r; discriminate.
Qed.

Lemma post_throttled : forall fuel url data w a tr r w', data <> [] -> throttled a ->
  tends true (PostFormEncoded (2 + fuel) url data) w (Asked (post_request url data) (Some a) :: tr) r w' -> r = Err.
Proof.
  intros fuel url data w a tr r w' ND T St. apply post_once in St as (b & tr' & E & H); auto.
  inversion E; subst. destruct H as [(S & _)|[(_ & H)|(_ & _ & H & _)]]; auto.
  exfalso. eapply successful_not_throttled; eauto.
Qed.

Lemma post_first : forall fuel url data w tr r w', data <> [] ->
  tends true (PostFormEncoded (S fuel) url data) w tr r w' ->
  exists a tr', tr = Asked (post_request url data) a :: tr' /\
    ((forall b, a = Some b -> ~ throttled b) -> decided 1 (post_request url data) r tr).
Proof.
  intros fuel url data w tr r w' ND St. apply post_once in St as (a & tr' & -> & H); auto.
  exists a, tr'. split; auto. intros NT. destruct a as [a|].
  - destruct H as [(S & -> & ->)|[(T & _)|(S & T & -> & ->)]].
    + exists []. split; auto. split; [constructor|auto].
    + exfalso. eapply NT; eauto.
    + exists [], (Some a). split; auto. split; [constructor|]. intros b X; inversion X; subst; auto.
  - destruct H as [-> ->]. exists [], None. split; auto. split; [constructor|discriminate].
Qed.

Lemma downloadImageUsingAllSources_order : forall ext cfg wiki efuel fuel fl image w tr r w',
  tends fl (downloadImageUsingAllSources ext cfg wiki efuel fuel image) w tr r w' ->
  r = Ok tt \/ r = Err ->
  exists delivered w1,
    asked_in_order fl (fun host => downloadImage ext cfg wiki efuel fuel host image)
      (wikipediaImageArticleHosts wiki) w tr delivered w1 /\
    match delivered with
    | Some (p, fresh) => tends fl (postProcessImage wiki p fresh) w1 [] r w'
    | None => w' = w1 /\ (r = Err <-> wikipediaImageArticleHosts wiki <> [])
    end.
Proof.
  intros ext cfg wiki efuel fuel fl image w tr r w' H R.
  apply try_sources_order in H as (o & w1 & A & B); auto. exists o, w1. split; auto.
  destruct o as [[p fresh]|]; auto. destruct B as [-> ->]. split; auto.
  destruct (wikipediaImageArticleHosts wiki); split; intros; congruence.
Qed.

Lemma no_host_no_error : forall ext cfg wiki efuel fuel image w, wikipediaImageArticleHosts wiki = [] ->
  tends false (downloadImageUsingAllSources ext cfg wiki efuel fuel image) w [] (Ok tt) w.
Proof. intros ext cfg wiki efuel fuel image w H. unfold downloadImageUsingAllSources. rewrite H. constructor. Qed.
