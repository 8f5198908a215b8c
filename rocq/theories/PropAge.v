(** * C64: the age of cached data, and the order of evictions (C37) in terms of the uses of files *)

From Coq Require Import Ascii String.
From Coq Require Import List ZArith Bool Lia.
From Verif Require Import GoStr UtilModel CacheModel CacheSpec CacheProofs CacheProofs2 PropCache AgeSpec AgeProofs AgeProofs2.
Import ListNotations.
Local Open Scope list_scope.

(** ** C64 *)

(** Full claim: data served from the cache has been written at most CacheMaxAge minutes ago (apart from fractions of a minute).  It holds, after every history of
    lookups and writes with failing calls, crashes and restarts, unless the LRU strategy is used: the data is that of a write of exactly this file, and this write
    ended less than CacheMaxAge + 1 minutes before the lookup read the clock. *)
Theorem C64_age_partial : forall cfg acts w folder name w',
  CacheEvictionStrategy cfg <> StrategyLru -> (0 <= CacheMaxAge cfg)%Z -> life cfg acts w -> In folder cache_folders ->
  ends true (GetFile cfg folder name) w (Ok true) w' ->
  exists a data now, In a acts /\ a_path a = cache_path folder name /\ a_data a = Some data /\
    content w' (cache_path folder name) = Some data /\
    (clock w <= now <= clock w')%Z /\ (now - a_end a < (CacheMaxAge cfg + 1) * ns_per_minute)%Z.
Proof.
  intros cfg acts w folder name w' S A H F St. destruct (life_written cfg acts w H) as (W & I). destruct (GetFile_hit cfg folder name w w' A St) as (f & now & L & C & B & D).
  apply lookup_some in L as (L & P). destruct (I f L) as ((a & I1 & I2 & I3 & I4) & _); [rewrite P; apply in_tmp_cache_path; auto|]. specialize (I4 S).
  exists a, (f_data f), now. repeat split; auto; [congruence|lia..].
Qed.
Print Assumptions C64_age_partial.

(** With every strategy the data is that of a write of this file, and the last use of the file - a write or a lookup - is that recent. *)
Theorem C64_last_use : forall cfg acts w folder name w',
  (0 <= CacheMaxAge cfg)%Z -> life cfg acts w -> In folder cache_folders ->
  ends true (GetFile cfg folder name) w (Ok true) w' ->
  (exists a, In a acts /\ a_path a = cache_path folder name /\ a_data a <> None /\ content w' (cache_path folder name) = a_data a) /\
  (exists a now, In a acts /\ a_path a = cache_path folder name /\ (clock w <= now <= clock w')%Z /\ (now - a_end a < (CacheMaxAge cfg + 1) * ns_per_minute)%Z).
Proof.
  intros cfg acts w folder name w' A H F St. destruct (life_written cfg acts w H) as (W & I). destruct (GetFile_hit cfg folder name w w' A St) as (f & now & L & C & B & D).
  apply lookup_some in L as (L & P). destruct (I f L) as ((a & I1 & I2 & I3 & _) & (b & J1 & J2 & J3)); [rewrite P; apply in_tmp_cache_path; auto|].
  split; [exists a; rewrite I3; repeat split; auto; [congruence|discriminate]|]. exists b, now. repeat split; auto; [congruence|lia..].
Qed.
Print Assumptions C64_last_use.

Definition ex_path : path := cache_path !"images" !"a.jpg".

(** The full claim is false of the LRU strategy, for every maximum age: each lookup renews the time of the file.  However old the data is, there is a history
    after which it is still served - a single write, and then a lookup every 59 seconds. *)
Theorem C64_lru_refuted : forall maxAge age, (0 <= maxAge)%Z -> (0 <= age)%Z ->
  let cfg := mkCacheConfig StrategyLru 100 maxAge in
  exists acts w w', life cfg acts w /\ ends false (GetFile cfg !"images" !"a.jpg") w (Ok true) w' /\ content w' ex_path = Some !"old" /\
    forall a, In a acts -> a_data a <> None -> (a_end a + age <= clock w)%Z.
Proof.
  intros maxAge age M A cfg. set (step := 59000000000%Z). set (at_ := fun t c => mkWorld [mkFile ex_path !"old" t] c).
  assert (G : forall t, ends false (GetFile cfg !"images" !"a.jpg") (at_ t (t + step)%Z) (Ok true) (at_ (t + step) (t + step))%Z).
  { intros t. assert (Q : (CacheMaxAge cfg <? Z.quot (t + step - t) ns_per_minute)%Z = false) by (apply Z.ltb_ge; replace (t + step - t)%Z with step by lia; exact M).
    apply exec_ends. unfold GetFile, isOutdated. change (cache_path !"images" !"a.jpg") with ex_path. cbn [pbind exec answer].
    replace (lookup ex_path (files (at_ t (t + step)%Z))) with (Some (mkFile ex_path !"old" t)) by reflexivity.
    cbn [pbind exec answer f_mtime clock at_]. change (clock (at_ t (t + step)%Z)) with (t + step)%Z. rewrite Q. generalize (t + step)%Z. intros c. vm_compute. reflexivity. }
  assert (P : forall n : nat, exists acts, life cfg acts (at_ (Z.of_nat n * step) (Z.of_nat n * step))%Z /\ forall a, In a acts -> a_data a <> None -> (a_end a <= 0)%Z).
  { induction n as [|n (acts & L & E)].
    - exists [mkAct ex_path 0 0 (Some !"old")]. split; [|intros a [<-|[]] _; cbn [a_end]; lia].
      change (at_ (Z.of_nat 0 * step) (Z.of_nat 0 * step))%Z with (mkWorld [mkFile ex_path !"old" 0] 0).
      refine (life_put cfg [] (mkWorld [] 0) 1 !"images" !"a.jpg" [!"old"] true (Ret (Ok tt)) (mkWorld [mkFile ex_path !"old" 0] 0) _ _ _); [constructor; reflexivity|vm_compute; auto|].
      apply steps_faulty. apply exec_ends. vm_compute. reflexivity.
    - exists (mkAct ex_path (Z.of_nat n * step + step) (Z.of_nat n * step + step) None :: acts). split; [|intros a [<-|I] K; [cbn [a_data] in K; congruence|auto]].
      replace (Z.of_nat (S n) * step)%Z with (Z.of_nat n * step + step)%Z by lia.
      refine (life_get cfg acts (at_ (Z.of_nat n * step) (Z.of_nat n * step + step))%Z !"images" !"a.jpg" (Ret (Ok true)) (at_ (Z.of_nat n * step + step) (Z.of_nat n * step + step))%Z _ _ _); [|vm_compute; auto|apply steps_faulty; apply G].
      eapply life_wait; [exact L|left; reflexivity|unfold at_, step; cbn [clock]; lia]. }
  destruct (P (Z.to_nat age)) as (acts & L & E). rewrite Z2Nat.id in L by lia.
  exists acts, (at_ (age * step) (age * step + step))%Z, (at_ (age * step + step) (age * step + step))%Z. split; [|split; [apply G|split; [reflexivity|]]].
  - eapply life_wait; [exact L|left; reflexivity|unfold at_, step; cbn [clock]; lia].
  - intros a I K. specialize (E a I K). unfold at_, step. cbn [clock]. lia.
Qed.
Print Assumptions C64_lru_refuted.

(** A file that was written, is found after 10 minutes and deleted after 11 *)
Example C64_example : let acts := [mkAct ex_path 3 3 (Some !"new")] in let w t := mkWorld [mkFile ex_path !"new" 3] t in
  (forall t, (3 <= t)%Z -> life cfg_largest acts (w t)) /\
  (exists w', ends true (GetFile cfg_largest !"images" !"a.jpg") (w (3 + 10 * ns_per_minute))%Z (Ok true) w') /\
  (exists w', ends true (GetFile cfg_largest !"images" !"a.jpg") (w (3 + 11 * ns_per_minute))%Z (Ok false) w').
Proof.
  intros acts w. split; [|split; eexists; apply steps_faulty; apply exec_ends; vm_compute; reflexivity]. intros t B. apply (life_wait cfg_largest acts (w 3%Z)); [|left; reflexivity|exact B].
  refine (life_put cfg_largest [] (mkWorld [] 3) 1 !"images" !"a.jpg" [!"ne"; !"w"] true (Ret (Ok tt)) (w 3%Z) _ _ _); [constructor; reflexivity|vm_compute; auto|].
  apply steps_faulty. apply exec_ends. vm_compute. reflexivity.
Qed.

(** ** C37 *)

(** In a history without failing calls, LRU means what it says: the last use of an evicted file - a lookup that found it, or a write - did not begin after the end of
    the last use of a file that has been kept. *)
Theorem C37_least_recently_used : forall cfg acts w fuel folder name chunks readOk rest w' e k,
  CacheEvictionStrategy cfg = StrategyLru -> (0 <= CacheMaxAge cfg)%Z -> use cfg acts w -> In folder cache_folders ->
  steps true (CacheToFile cfg fuel folder name chunks readOk) w rest w' ->
  evicted w w' e -> In k (cached w) -> In k (cached w') -> f_path k <> cache_path folder name ->
  exists ae ak, last_use acts (f_path e) = Some ae /\ last_use acts (f_path k) = Some ak /\ (a_begin ae <= a_end ak)%Z.
Proof.
  intros cfg acts w fuel folder name chunks readOk rest w' e k L A H F St E K K' N. destruct (use_recent cfg acts w L A H) as (W & R).
  assert (B : evict_before (CacheEvictionStrategy cfg) e k) by (eapply C37_eviction_order; eauto; rewrite L; discriminate). rewrite L in B. cbn [evict_before] in B.
  destruct E as (E & _). apply cached_In in E as (E1 & E2). apply cached_In in K as (K1 & K2). destruct (R e E1 E2) as (ae & X & Y). destruct (R k K1 K2) as (ak & X' & Y').
  exists ae, ak. repeat split; auto. lia.
Qed.
Print Assumptions C37_least_recently_used.

(** Two files are written and the older one is looked up.  The next write evicts the other one. *)
Example C37_use_example :
  let a := cache_path !"images" !"a.jpg" in let b := cache_path !"images" !"b.jpg" in
  let w := mkWorld [mkFile b (bytes 25) 20; mkFile a (bytes 25) 30] 30 in
  use cfg_lru [mkAct a 30 30 None; mkAct b 20 20 (Some (bytes 25)); mkAct a 10 10 (Some (bytes 25))] w /\
  exists w', ends true (CacheToFile cfg_lru 5 !"images" !"c.jpg" [bytes 30] true) w (Ok tt) w' /\
    evicted w w' (mkFile b (bytes 25) 20) /\ In (mkFile a (bytes 25) 30) (cached w').
Proof.
  intros a b w. split.
  - refine (use_hit cfg_lru _ (mkWorld [mkFile b (bytes 25) 20; mkFile a (bytes 25) 10] 30) !"images" !"a.jpg" w _ _ _); [|vm_compute; auto|apply exec_ends; vm_compute; reflexivity].
    apply (use_wait cfg_lru _ (mkWorld [mkFile b (bytes 25) 20; mkFile a (bytes 25) 10] 20)); [|left; reflexivity|cbn [clock]; lia].
    refine (use_put cfg_lru _ (mkWorld [mkFile a (bytes 25) 10] 20) 5 !"images" !"b.jpg" [bytes 25] true (mkWorld [mkFile b (bytes 25) 20; mkFile a (bytes 25) 10] 20) _ _ _); [|vm_compute; auto|apply exec_ends; vm_compute; reflexivity].
    apply (use_wait cfg_lru _ (mkWorld [mkFile a (bytes 25) 10] 10)); [|left; reflexivity|cbn [clock]; lia].
    refine (use_put cfg_lru _ (mkWorld [] 10) 5 !"images" !"a.jpg" [bytes 25] true (mkWorld [mkFile a (bytes 25) 10] 10) _ _ _); [|vm_compute; auto|apply exec_ends; vm_compute; reflexivity].
    apply use_begin. reflexivity.
  - eexists. split; [apply steps_faulty; apply exec_ends; vm_compute; reflexivity|]. split; [split; [vm_compute; auto|vm_compute; reflexivity]|vm_compute; auto].
Qed.
