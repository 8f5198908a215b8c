(** * Property C77: the maximum size of the cache, while several workers use it *)

From Coq Require Import Ascii String.
From Coq Require Import List Arith ZArith Bool.
From Verif Require Import GoStr UtilModel CacheModel CacheSpec CacheProofs CacheProofs2 HttpModel HttpSpec ServiceModel ServiceProofs LockModel LockProofs LimitSpec LimitProofs
  PropCache PropHttp PropService PropImages.
Import ListNotations.
Local Open Scope list_scope.

(** A cache below its maximum size is below it at every moment, whatever the workers do and in whatever order, also while a file is written and after the process died, unless
    images or formulas are converted or changed by other programs. *)
Theorem C77_limit_partial : forall ext max w0 jobs s, wf w0 -> (cache_size w0 < max)%Z -> bounded ext max w0 jobs s -> Forall leaves_images jobs ->
  (cache_size (drive s) < max)%Z.
Proof. intros ext max w0 jobs s W F B J. destruct (bounded_good ext max w0 W F jobs s B J) as ((_ & D) & _). rewrite cache_size_tsum. exact D. Qed.
Print Assumptions C77_limit_partial.

Lemma schedule_bounded : forall ext server cfg w0 ms J s J' s', CacheEvictionStrategy cfg <> StrategyNone -> bounded ext (CacheMaxSize cfg) w0 J s ->
  schedule_once ext server cfg ms (J, s) = Some (J', s') -> bounded ext (CacheMaxSize cfg) w0 J' s'.
Proof.
  intros ext server cfg w0 ms. induction ms as [|m ms IH]; intros J s J' s' CM R H; cbn [schedule_once] in H; [injection H as <- <-; exact R|].
  destruct (do_once ext server cfg m (J, s)) as [[J1 s1]|] eqn:E; [|discriminate]. eapply IH; [exact CM| |exact H]. clear IH H. destruct m; cbn [do_once] in E.
  - destruct (is_result j) eqn:IR; [discriminate|]. injection E as <- <-. apply bounded_start; [exact R|]. intros folder file chunks ->. discriminate.
  - destruct (nth_error (staff s) worker) as [[j a]|] eqn:N; [|discriminate]. destruct (act_once _ _ _ _ _) as [[[ev a'] w']|] eqn:AC; [|discriminate].
    injection E as <- <-. refine (bounded_step ext _ w0 J (firstn worker (staff s)) j a (skipn (S worker) (staff s)) (drive s) (traffic s) cfg 3 ev a' w' _ eq_refl CM (act_once_step _ _ _ _ _ _ _ _ AC)).
    rewrite <- (nth_split _ _ _ _ N). destruct s. exact R.
  - injection E as <- <-. eapply bounded_crash; [exact R|reflexivity|]. reflexivity.
Qed.

(** Two workers with two articles, whose steps are mixed: the first article is evicted for the second one. *)
Definition cfg_tiny (max : Z) : cache_config := mkCacheConfig StrategyLru max 10.
Definition ex_two_jobs : list job := [GetArticle (ex_wiki []) !"de.wikipedia.org" !"Java"; GetArticle (ex_wiki []) !"en.wikipedia.org" !"Bali"].

Example C77_example : exists s, wf (mkWorld [] 0) /\ (cache_size (mkWorld [] 0) < 20)%Z /\ bounded ex_ext 20 (mkWorld [] 0) ex_two_jobs s /\ Forall leaves_images ex_two_jobs /\
  staff s = [(GetArticle (ex_wiki []) !"de.wikipedia.org" !"Java", Free (TRet (Ok (Article !"deutsch" !"deutsch"))));
             (GetArticle (ex_wiki []) !"en.wikipedia.org" !"Bali", Free (TRet (Ok (Article !"island" !"island"))))] /\
  map f_path (files (drive s)) = [[!"articles"; !"Java.json"]].
Proof.
  destruct (schedule_once ex_ext ex_two_wikis (cfg_tiny 20) (map Start (rev ex_two_jobs) ++ repeat (Act 0) 3 ++ repeat (Act 1) 17 ++ repeat (Act 0) 16)
    ([], mkCrowd [] (mkWorld [] 0) [])) as [[J s]|] eqn:E; [|vm_compute in E; discriminate].
  assert (R : bounded ex_ext 20 (mkWorld [] 0) J s) by (apply (schedule_bounded ex_ext ex_two_wikis (cfg_tiny 20) (mkWorld [] 0) _ _ _ _ _ ltac:(discriminate) (bounded_begin _ _ _) E)).
  vm_compute in E. injection E as <- <-. eexists. split; [constructor|]. split; [reflexivity|]. split; [exact R|]. split; [repeat constructor|]. split; reflexivity.
Qed.

(** Without the restriction it is false: the program that converts an image writes into the cache without regard to the maximum size. *)
Definition ex_page_world : world := mkWorld [mkFile [!"articles"; !"File%3AA.svg.json"] !"File:A.svg" 0] 0.
Definition small_server : server := fun url => Some (ok_response !"x").

Theorem C77_conversion_refuted : exists ext max w0 jobs s, wf w0 /\ (cache_size w0 < max)%Z /\ bounded ext max w0 jobs s /\
  jobs = [GetImages (image_wiki [!"one.org"]) [!"File:A.svg"]] /\ staff s = map (fun j => (j, Free (TRet (Ok Done)))) jobs /\
  (max < cache_size (drive s))%Z.
Proof.
  exists ex_ext, 13%Z, ex_page_world.
  destruct (schedule_once ex_ext small_server (cfg_tiny 13) (Start (GetImages (image_wiki [!"one.org"]) [!"File:A.svg"]) :: repeat (Act 0) 25)
    ([], mkCrowd [] ex_page_world [])) as [[J s]|] eqn:E; [|vm_compute in E; discriminate].
  assert (R : bounded ex_ext 13 ex_page_world J s) by (apply (schedule_bounded ex_ext small_server (cfg_tiny 13) ex_page_world _ _ _ _ _ ltac:(discriminate) (bounded_begin _ _ _) E)).
  vm_compute in E. injection E as <- <-. eexists _, _. split; [repeat constructor; simpl; intuition discriminate|]. split; [reflexivity|]. split; [exact R|]. split; [reflexivity|]. split; reflexivity.
Qed.
Print Assumptions C77_conversion_refuted.
