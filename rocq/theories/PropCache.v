(** * C35-C39: the file cache *)

From Coq Require Import Ascii String.
From Coq Require Import List ZArith Bool Lia.
From Verif Require Import GoStr UtilModel CacheModel CacheSpec CacheProofs CacheProofs2.
Import ListNotations.
Local Open Scope list_scope.

(** Example caches *)
Definition bytes (n : nat) : str := repeat "x"%char n.
Definition ex_file (name : str) (n : nat) (t : Z) : file := mkFile (cache_path !"images" name) (bytes n) t.
Definition cfg_lru : cache_config := mkCacheConfig StrategyLru 100 10.
Definition cfg_largest : cache_config := mkCacheConfig StrategyLargest 100 10.

(** ** C35 *)

(** The process may die after any number of system calls of a cache write, and every call may fail.  At that point
    each path outside of .tmp has its old content, no file, or - only at the target - the complete new content. *)
Theorem C35_cache_write_atomic : forall cfg fuel folder name chunks readOk w rest w',
  In folder cache_folders ->
  steps true (CacheToFile cfg fuel folder name chunks readOk) w rest w' ->
  forall p, in_tmp p = false ->
    content w' p = content w p \/
    content w' p = None \/
    (p = cache_path folder name /\ readOk = true /\ content w' p = Some (all_data chunks)).
Proof.
  exact (fun cfg fuel folder name chunks readOk w rest w' HF St =>
    safe_inv _ _ _ _ _ (safe_steps _ _ _ _ _ _ _ St (CacheToFile_complete true cfg fuel folder name chunks readOk w HF))).
Qed.
Print Assumptions C35_cache_write_atomic.

(** If the call reports success, the target has the complete new content, and the input was complete. *)
Theorem C35_cache_write_success : forall faulty cfg fuel folder name chunks readOk w w',
  In folder cache_folders ->
  ends faulty (CacheToFile cfg fuel folder name chunks readOk) w (Ok tt) w' ->
  readOk = true /\ content w' (cache_path folder name) = Some (all_data chunks).
Proof.
  exact (fun fl cfg fuel folder name chunks readOk w w' HF St =>
    proj2 (safe_steps _ _ _ _ _ _ _ St (CacheToFile_complete fl cfg fuel folder name chunks readOk w HF))).
Qed.
Print Assumptions C35_cache_write_success.

(** In every state of every history (with crashes, failing calls and restarts) every cached file is an initial one or
    the complete input of one of the writes. *)
Theorem C35_cache_contents_complete : forall cfg w0 ops w p d,
  (0 <= CacheMaxAge cfg)%Z ->
  history cfg w0 ops w -> in_tmp p = false -> content w p = Some d ->
  content w0 p = Some d \/
  exists folder name chunks fuel,
    In (OpPut folder name chunks true fuel) ops /\ p = cache_path folder name /\ d = all_data chunks.
Proof. exact history_complete. Qed.
Print Assumptions C35_cache_contents_complete.

(** A write that evicts another file and replaces the old content *)
Definition ex_w1 : world := mkWorld [ex_file !"a.jpg" 30 5; ex_file !"b.jpg" 50 3; ex_file !"c.jpg" 5 9] 20.
Example C35_example : exists w',
  ends false (CacheToFile cfg_lru 3 !"images" !"c.jpg" [bytes 10; bytes 10] true) ex_w1 (Ok tt) w' /\
  content w' (cache_path !"images" !"c.jpg") = Some (bytes 20) /\
  content w' (cache_path !"images" !"a.jpg") = Some (bytes 30) /\
  content w' (cache_path !"images" !"b.jpg") = None.
Proof. eexists. split; [apply exec_ends; vm_compute; reflexivity|]. vm_compute. auto. Qed.

(** ** C36 *)

(** A cache below its maximum size is below it in every state of every history, including the states in the middle of
    an operation. *)
Theorem C36_cache_size_limit : forall cfg w0 ops w,
  CacheEvictionStrategy cfg <> StrategyNone ->
  wf w0 -> (cache_size w0 < CacheMaxSize cfg)%Z ->
  history cfg w0 ops w ->
  (cache_size w < CacheMaxSize cfg)%Z.
Proof. exact (fun cfg w0 ops w ST W F H => proj2 (history_fits (CacheMaxSize cfg) cfg eq_refl ST w0 ops w (conj W F) H)). Qed.
Print Assumptions C36_cache_size_limit.
Example C36_example : wf ex_w1 /\ (cache_size ex_w1 < CacheMaxSize cfg_lru)%Z /\ exists w',
  history cfg_lru ex_w1 [OpPut !"images" !"d.jpg" [bytes 40] true 5] w' /\ cache_size w' = 45%Z.
Proof.
  split; [repeat constructor; simpl; intuition discriminate|]. split; [reflexivity|].
  eexists. split.
  - eapply hist_put; [apply hist_start|vm_compute; auto|]. apply steps_faulty, exec_ends. vm_compute. reflexivity.
  - vm_compute. reflexivity.
Qed.

(** It does not hold without the assumption on the initial size: a write can succeed and leave a cache that is too
    large, because the size of a replaced file is subtracted although the file was evicted before. *)
Theorem C36_write_restores_limit_refuted : exists cfg w folder name chunks fuel w',
  CacheEvictionStrategy cfg = StrategyLru /\ wf w /\ In folder cache_folders /\
  ends false (CacheToFile cfg fuel folder name chunks true) w (Ok tt) w' /\
  (CacheMaxSize cfg < cache_size w')%Z.
Proof.
  exists cfg_lru, (mkWorld [ex_file !"t.jpg" 70 1; ex_file !"u.jpg" 110 5] 20), !"images", !"t.jpg", [bytes 10], 5.
  eexists. split; [reflexivity|]. split; [repeat constructor; simpl; intuition discriminate|].
  split; [vm_compute; auto|]. split; [apply exec_ends; vm_compute; reflexivity|]. vm_compute. reflexivity.
Qed.
Print Assumptions C36_write_restores_limit_refuted.

(** ** C37 *)

(** In every state during a write: an evicted file was not more recently used (not smaller) than any other file that
    is still there. *)
Theorem C37_eviction_order : forall cfg fuel folder name chunks readOk w rest w' e k,
  CacheEvictionStrategy cfg <> StrategyNone -> wf w -> In folder cache_folders ->
  steps true (CacheToFile cfg fuel folder name chunks readOk) w rest w' ->
  evicted w w' e ->
  In k (cached w) -> In k (cached w') -> f_path k <> cache_path folder name ->
  evict_before (CacheEvictionStrategy cfg) e k.
Proof. exact CacheToFile_evicted_before. Qed.
Print Assumptions C37_eviction_order.

(** Full claim: files are only evicted if the new file does not fit next to them.  It is false: the new file is counted
    twice, as temporary file and as new file. *)
Theorem C37_evicted_only_if_needed_refuted : exists cfg w folder name chunks fuel w' e,
  CacheEvictionStrategy cfg = StrategyLru /\ wf w /\ In folder cache_folders /\
  content w (cache_path folder name) = None /\
  (cache_size w + Z.of_nat (List.length (all_data chunks)) < CacheMaxSize cfg)%Z /\
  ends false (CacheToFile cfg fuel folder name chunks true) w (Ok tt) w' /\
  evicted w w' e.
Proof.
  exists cfg_lru, (mkWorld [ex_file !"a.jpg" 50 1] 20), !"images", !"b.jpg", [bytes 30], 5.
  eexists. exists (ex_file !"a.jpg" 50 1). split; [reflexivity|]. split; [repeat constructor; simpl; intuition discriminate|].
  split; [vm_compute; auto|]. split; [reflexivity|]. split; [reflexivity|].
  split; [apply exec_ends; vm_compute; reflexivity|]. vm_compute. auto.
Qed.
Print Assumptions C37_evicted_only_if_needed_refuted.

(** What does hold without failing system calls: if a file other than the target is gone, there is a file removed by
    this write such that keeping it would have exceeded the limit if the new file is counted twice and temporary files
    are counted. Missing for the full claim: the new file should be counted once. *)
Theorem C37_evicted_only_if_needed_partial : forall cfg fuel folder name chunks readOk w rest w' g,
  CacheEvictionStrategy cfg <> StrategyNone -> wf w -> In folder cache_folders ->
  steps false (CacheToFile cfg fuel folder name chunks readOk) w rest w' ->
  evicted w w' g -> f_path g <> cache_path folder name ->
  exists e, In e (cached w) /\ (f_path e = cache_path folder name \/ content w' (f_path e) = None) /\
    (CacheMaxSize cfg <= other_size w' (cache_path folder name) + f_size e + temp_size w
                         + 2 * Z.of_nat (List.length (all_data chunks)))%Z.
Proof. exact CacheToFile_evicted_needed. Qed.
Print Assumptions C37_evicted_only_if_needed_partial.

(** ... in particular nothing is evicted if the doubly counted file fits. *)
Theorem C37_no_needless_eviction_partial : forall cfg fuel folder name chunks readOk w rest w' k,
  CacheEvictionStrategy cfg <> StrategyNone -> wf w -> In folder cache_folders ->
  (cache_size w + temp_size w + 2 * Z.of_nat (List.length (all_data chunks)) < CacheMaxSize cfg)%Z ->
  steps false (CacheToFile cfg fuel folder name chunks readOk) w rest w' ->
  In k (cached w) -> f_path k <> cache_path folder name ->
  content w' (f_path k) = Some (f_data k).
Proof. exact CacheToFile_no_eviction. Qed.
Print Assumptions C37_no_needless_eviction_partial.
Example C37_example : exists w',
  ends false (CacheToFile cfg_largest 3 !"images" !"d.jpg" [bytes 20] true) ex_w1 (Ok tt) w' /\
  evicted ex_w1 w' (ex_file !"b.jpg" 50 3) /\ In (ex_file !"a.jpg" 30 5) (cached w') /\ In (ex_file !"c.jpg" 5 9) (cached w').
Proof. eexists. split; [apply exec_ends; vm_compute; reflexivity|]. vm_compute. auto 8. Qed.

(** ** C38 *)

(** Full claim: a file smaller than the maximum size can be cached.  It is false for both strategies, even for an empty
    cache: counting the file twice, the loop tries to evict something although nothing is left.  One strategy
    crashes, the other one reports an error. *)
Theorem C38_file_that_fits_largest_refuted : exists cfg w folder name chunks w',
  CacheEvictionStrategy cfg = StrategyLargest /\ files w = [] /\ In folder cache_folders /\
  (Z.of_nat (List.length (all_data chunks)) < CacheMaxSize cfg)%Z /\
  ends false (CacheToFile cfg 10 folder name chunks true) w Panic w'.
Proof.
  exists cfg_largest, (mkWorld [] 0), !"images", !"a.jpg", [bytes 60]. eexists.
  split; [reflexivity|]. split; [reflexivity|]. split; [vm_compute; auto|]. split; [reflexivity|].
  apply exec_ends. vm_compute. reflexivity.
Qed.
Print Assumptions C38_file_that_fits_largest_refuted.

Theorem C38_file_that_fits_lru_refuted : exists cfg w folder name chunks w',
  CacheEvictionStrategy cfg = StrategyLru /\ files w = [] /\ In folder cache_folders /\
  (Z.of_nat (List.length (all_data chunks)) < CacheMaxSize cfg)%Z /\
  ends false (CacheToFile cfg 10 folder name chunks true) w Err w'.
Proof.
  exists cfg_lru, (mkWorld [] 0), !"images", !"a.jpg", [bytes 60]. eexists.
  split; [reflexivity|]. split; [reflexivity|]. split; [vm_compute; auto|]. split; [reflexivity|].
  apply exec_ends. vm_compute. reflexivity.
Qed.
Print Assumptions C38_file_that_fits_lru_refuted.

(** What does hold: a file of less than half of the maximum size (next to the temporary files) can be cached; without
    failing system calls the write ends, and it ends with success.  The loop needs at most as many rounds as there
    are cached files.  Missing for the full claim: files between half and the full maximum size. *)
Theorem C38_file_that_fits_partial : forall cfg fuel folder name chunks w,
  CacheEvictionStrategy cfg <> StrategyNone -> wf w -> In folder cache_folders ->
  (temp_size w + 2 * Z.of_nat (List.length (all_data chunks)) < CacheMaxSize cfg)%Z ->
  List.length (cached w) <= fuel ->
  (exists r w', ends false (CacheToFile cfg fuel folder name chunks true) w r w') /\
  (forall r w', ends false (CacheToFile cfg fuel folder name chunks true) w r w' ->
     r = Ok tt /\ content w' (cache_path folder name) = Some (all_data chunks)).
Proof. exact CacheToFile_succeeds. Qed.
Print Assumptions C38_file_that_fits_partial.

(** Without eviction strategy every file can be cached. *)
Theorem C38_no_limit_without_strategy : forall cfg fuel folder name chunks w,
  CacheEvictionStrategy cfg = StrategyNone -> wf w -> In folder cache_folders ->
  (exists r w', ends false (CacheToFile cfg fuel folder name chunks true) w r w') /\
  (forall r w', ends false (CacheToFile cfg fuel folder name chunks true) w r w' ->
     r = Ok tt /\ content w' (cache_path folder name) = Some (all_data chunks)).
Proof. exact CacheToFile_none_succeeds. Qed.
Print Assumptions C38_no_limit_without_strategy.
Example C38_example : (temp_size ex_w1 + 2 * Z.of_nat (List.length (all_data [bytes 20; bytes 20])) < CacheMaxSize cfg_lru)%Z /\
  (CacheMaxSize cfg_lru <= cache_size ex_w1 + 40)%Z.
Proof. split; vm_compute; [reflexivity|discriminate]. Qed.

(** ** C39 *)

(** A lookup answers with a hit iff the file exists and its age, at a point in time during the lookup, is below
    CacheMaxAge + 1 minutes (the age is rounded down to minutes).  After a hit the content is still there, otherwise the
    file does not exist afterwards. *)
Theorem C39_lookup : forall cfg folder name w r w',
  (0 <= CacheMaxAge cfg)%Z ->
  ends false (GetFile cfg folder name) w r w' ->
  exists hit, r = Ok hit /\
  (hit = true -> exists f now,
     lookup (cache_path folder name) (files w) = Some f /\ (clock w <= now <= clock w')%Z /\
     (now - f_mtime f < (CacheMaxAge cfg + 1) * ns_per_minute)%Z /\
     content w' (cache_path folder name) = Some (f_data f)) /\
  (hit = false -> content w' (cache_path folder name) = None /\
     forall f, lookup (cache_path folder name) (files w) = Some f ->
       exists now, (clock w <= now <= clock w')%Z /\ ((CacheMaxAge cfg + 1) * ns_per_minute <= now - f_mtime f)%Z).
Proof. exact GetFile_exact. Qed.
Print Assumptions C39_lookup.

(** Even with failing system calls and at every crash point: an outdated file is never served, other files are
    untouched, and the file itself is never modified. *)
Theorem C39_outdated_never_served : forall cfg folder name w w',
  (0 <= CacheMaxAge cfg)%Z ->
  ends true (GetFile cfg folder name) w (Ok true) w' ->
  exists f now, lookup (cache_path folder name) (files w) = Some f /\ (clock w <= now <= clock w')%Z /\
    (now - f_mtime f < (CacheMaxAge cfg + 1) * ns_per_minute)%Z /\
    content w' (cache_path folder name) = Some (f_data f).
Proof. exact GetFile_hit. Qed.
Print Assumptions C39_outdated_never_served.

Theorem C39_lookup_other_files_untouched : forall cfg folder name w rest w',
  (0 <= CacheMaxAge cfg)%Z ->
  steps true (GetFile cfg folder name) w rest w' ->
  (forall p, p <> cache_path folder name -> lookup p (files w') = lookup p (files w)) /\
  (content w' (cache_path folder name) = content w (cache_path folder name) \/
   content w' (cache_path folder name) = None).
Proof. exact GetFile_others. Qed.
Print Assumptions C39_lookup_other_files_untouched.
Example C39_example :
  let old := mkWorld [ex_file !"a.jpg" 3 0] (11 * ns_per_minute)%Z in
  let fresh := mkWorld [ex_file !"a.jpg" 3 1] (11 * ns_per_minute)%Z in
  (exists w', ends false (GetFile cfg_largest !"images" !"a.jpg") old (Ok false) w') /\
  (exists w', ends false (GetFile cfg_largest !"images" !"a.jpg") fresh (Ok true) w').
Proof. split; eexists; apply exec_ends; vm_compute; reflexivity. Qed.
