(** * Property C76, for data that is in the cache already *)

From Coq Require Import Ascii String.
From Coq Require Import List Arith ZArith Bool Lia.
From Verif Require Import GoStr UtilModel CacheModel CacheSpec CacheProofs CacheProofs2 HttpModel HttpSpec HttpProofs ServiceModel ServiceProofs LockModel LockProofs OnceSpec OnceProofs
  PropCache PropHttp PropService PropTwice.
Import ListNotations.
Local Open Scope list_scope.

Lemma process_clock : forall ext cfg s s', process ext cfg s s' -> (clock (drive s) <= clock (drive s'))%Z.
Proof.
  intros ext cfg s s' H. induction H as [s|s s' j fuel H IH|s before j a after w net efuel events a' w' H IH S]; cbn [drive] in *; try lia.
  assert (X : (clock w <= clock w')%Z) by (destruct S; try lia; eapply sys_step_clock; eauto). lia.
Qed.

(** A worker that begins when the article or the template that it needs is in the cache never sends a request for it, whatever the other workers do in the meantime and
    whichever system calls fail, if nothing is evicted, nothing gets too old ([m0]: no file was written before) and the process does not die. *)
Theorem C76_stored_partial : forall ext cfg m0 w0 s1 j p fuel s2 before j' a after,
  CacheEvictionStrategy cfg = StrategyNone -> (0 <= CacheMaxAge cfg)%Z -> (m0 <= clock w0)%Z -> (forall f, In f (files w0) -> (m0 <= f_mtime f)%Z) ->
  process ext cfg (mkCrowd [] w0 []) s1 -> needed ext j = Some p -> content (drive s1) p <> None ->
  process ext cfg (mkCrowd ((j, Free (program ext fuel j)) :: staff s1) (drive s1) (traffic s1)) s2 ->
  (clock (drive s2) <= m0 + CacheMaxAge cfg * (60 * 1000000000))%Z ->
  staff s2 = before ++ (j', a) :: after -> length after = length (staff s1) -> ~ sends a.
Proof.
  intros ext cfg m0 w0 s1 j p fuel s2 before j' a after ST AGE M0 MF P1 N C P2 L E LE.
  assert (T : in_tmp p = false) by (destruct j; try discriminate; injection N as <-; reflexivity).
  assert (K : (clock (drive s1) <= clock (drive s2))%Z) by (apply process_clock in P2; exact P2).
  assert (A : all_calm cfg m0 p true s1).
  { apply calm_found; [|unfold content in C; destruct (lookup p (files (drive s1))); [discriminate|contradiction]].
    apply (process_calm ext cfg m0 p T ST AGE false _ _ P1); [unfold ns_per_minute; lia|]. split; [split; auto|]. split; [discriminate|]. intros ? ? []. }
  destruct A as (A & B & W).
  destruct (process_mute ext cfg m0 p T ST AGE _ _ (length (staff s1)) P2) as (_ & G).
  - unfold ns_per_minute. exact L.
  - split; [exact A|]. split; [exact B|]. intros k b [X|X]; [injection X as <- <-; apply modest_program|eapply W; eauto].
  - cbn [staff length]. lia.
  - cbn [staff]. intros [|x b] k c d X Y; cbn [app] in X; [|exfalso; injection X as _ X2; apply (f_equal (@length _)) in X2; rewrite app_length in X2; cbn [length] in X2; lia].
    injection X as <- <- <-. cbn [mute_activity]. destruct j; try discriminate; injection N as <-; cbn; intros [[|]| | |] R; try (exfalso; apply R; reflexivity); cbn; auto;
      (split; [discriminate|]); intros [x|]; cbn; auto.
    + destruct (json_article_title ext x); cbn; auto.
    + destruct (json_template ext x); cbn; auto.
  - specialize (G _ _ _ _ E LE). intros (q & k & ->). cbn [mute_activity mute] in G. destruct G as (G & _). exact (G q eq_refl).
Qed.
Print Assumptions C76_stored_partial.

Definition no_restart (m : ServiceProofs.move) : bool := match m with Restart => false | _ => true end.
Lemma schedule_process : forall ext server cfg s0 ms J s J' s', forallb no_restart ms = true -> process ext cfg s0 s ->
  schedule_once ext server cfg ms (J, s) = Some (J', s') -> process ext cfg s0 s'.
Proof.
  intros ext server cfg s0 ms. induction ms as [|m ms IH]; intros J s J' s' NR R H; cbn [schedule_once] in H; [injection H as <- <-; exact R|].
  cbn [forallb] in NR. apply andb_prop in NR as (N1 & N2).
  destruct (do_once ext server cfg m (J, s)) as [[J1 s1]|] eqn:E; [|discriminate]. eapply IH; [exact N2| |exact H]. clear IH H. destruct m; cbn [do_once] in E; [| |discriminate N1].
  - destruct (is_result j) eqn:IR; [discriminate|]. injection E as <- <-. apply process_start. exact R.
  - destruct (nth_error (staff s) worker) as [[j a]|] eqn:N; [|discriminate]. destruct (act_once _ _ _ _ _) as [[[ev a'] w']|] eqn:AC; [|discriminate].
    injection E as <- <-. refine (process_step ext cfg s0 (firstn worker (staff s)) j a (skipn (S worker) (staff s)) (drive s) (traffic s) 3 ev a' w' _ (act_once_step _ _ _ _ _ _ _ _ AC)).
    rewrite <- (nth_split _ _ _ _ N). destruct s. exact R.
Qed.

(** A worker stores an article, while another one begins, and a third worker, which begins after that, takes it from the cache. *)
Definition bali : job := GetArticle (ex_wiki []) !"en.wikipedia.org" !"Bali".
Definition java : job := GetArticle (ex_wiki []) !"de.wikipedia.org" !"Java".
Definition reached (ms : list ServiceProofs.move) (s : crowd) : crowd := match schedule_once ex_ext ex_two_wikis cfg_keep ms ([], s) with Some (_, s') => s' | None => s end.
Lemma reached_process : forall ms s, forallb no_restart ms = true -> process ex_ext cfg_keep s (reached ms s).
Proof.
  intros ms s N. unfold reached. destruct (schedule_once ex_ext ex_two_wikis cfg_keep ms ([], s)) as [[J s']|] eqn:E; [|apply process_none].
  eapply (schedule_process ex_ext ex_two_wikis); [exact N|apply process_none|exact E].
Qed.

Definition ex_stored : crowd := reached ([Start java; Start bali] ++ repeat (Act 1) 3 ++ repeat (Act 0) 14) (mkCrowd [] (mkWorld [] 0) []).
Example C76_stored_example : exists s2,
  process ex_ext cfg_keep (mkCrowd [] (mkWorld [] 0) []) ex_stored /\ needed ex_ext bali = Some [!"articles"; !"Bali.json"] /\
  content (drive ex_stored) [!"articles"; !"Bali.json"] = Some !"island" /\ length (staff ex_stored) = 2 /\
  process ex_ext cfg_keep (mkCrowd ((bali, Free (program ex_ext 3 bali)) :: staff ex_stored) (drive ex_stored) (traffic ex_stored)) s2 /\
  (clock (drive s2) <= 0 + CacheMaxAge cfg_keep * (60 * 1000000000))%Z /\
  nth_error (staff s2) 0 = Some (bali, Free (TRet (Ok (Article !"island" !"island")))) /\ length (staff s2) = 3.
Proof.
  exists (reached [Act 0; Act 0; Act 2; Act 0; Act 0; Act 0] (mkCrowd ((bali, Free (program ex_ext 3 bali)) :: staff ex_stored) (drive ex_stored) (traffic ex_stored))).
  split; [apply reached_process; reflexivity|]. split; [reflexivity|]. split; [vm_compute; reflexivity|]. split; [vm_compute; reflexivity|].
  split; [apply reached_process; reflexivity|]. split; [vm_compute; discriminate|]. split; vm_compute; reflexivity.
Qed.
