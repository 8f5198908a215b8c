(** * Property C76: what several workers need is requested only once (refuted) *)

From Coq Require Import Ascii String.
From Coq Require Import List Arith ZArith Bool.
From Verif Require Import GoStr UtilModel CacheModel CacheSpec CacheProofs CacheProofs2 HttpModel HttpSpec ServiceModel ServiceSpec ServiceProofs LockModel LockProofs PropCache PropHttp PropService.
Import ListNotations.
Local Open Scope list_scope.

(** The number of complete, successful answers for an address *)
Definition answered (url : str) (e : net_event) : bool :=
  match e with
  | Asked q (Some a) => str_eqb (q_url q) url && negb (q_post q) && (a_status a =? 200)%Z && a_complete a
  | _ => false
  end.
Definition downloads (url : str) (net : list net_event) : nat := length (filter (answered url) net).

(** Whatever the work of a worker can still lead to *)
Inductive future {A} : thread A -> thread A -> Prop :=
| future_now : forall p, future p p
| future_lookup : forall folder file k r q, future (k r) q -> future (TLookup folder file k) q
| future_store : forall folder file chunks ok k r q, future (k r) q -> future (TStore folder file chunks ok k) q
| future_call : forall c k r q, future (k r) q -> future (TCall c k) q.

Fixpoint silent {A} (p : thread A) : Prop :=
  match p with
  | TRet _ => True
  | TLookup _ _ k => forall r, silent (k r)
  | TStore _ _ _ _ k => forall r, silent (k r)
  | TCall c k => (forall q, c <> SDo q) /\ forall r, silent (k r)
  end.
Lemma silent_future : forall A (p q : thread A), future p q -> silent p -> silent q.
Proof. intros A p q F. induction F; cbn [silent]; auto. intros [_ H]. auto. Qed.

(** The first thing that a worker does for an article or a template is to look for it in the cache, and if it is there, no request is sent. *)
Theorem C76_found_partial : forall ext fuel,
  (forall wiki host title, exists k, program ext fuel (GetArticle wiki host title) = TLookup !"articles" (article_file title) k /\
     forall c k' q, future (k (Ok true)) (TCall c k') -> c <> SDo q) /\
  (forall wiki template, exists k, program ext fuel (GetTemplate wiki template) = TLookup !"templates" (Hash ext template) k /\
     forall c k' q, future (k (Ok true)) (TCall c k') -> c <> SDo q).
Proof.
  intros ext fuel. split.
  - intros wiki host title. eexists. split; [reflexivity|]. intros c k' q F. eapply silent_future in F; [apply F|]. cbn. split; [discriminate|].
    intros [d|]; cbn; auto. destruct (json_article_title ext d); cbn; auto.
  - intros wiki template. eexists. split; [reflexivity|]. intros c k' q F. eapply silent_future in F; [apply F|]. cbn. split; [discriminate|].
    intros [d|]; cbn; auto. destruct (json_template ext d); cbn; auto.
Qed.
Print Assumptions C76_found_partial.

(** Full claim: each address is downloaded at most once, if nothing is evicted or expired, no call fails and the process does not die.  It is false: two workers that need the same
    article at the same time both look for it before one of them has stored it, and both download it. *)
Definition cfg_keep : cache_config := mkCacheConfig StrategyNone 1000000 1000000.

Theorem C76_twice_refuted : exists jobs s, mixed ex_ext jobs s /\ jobs = repeat (GetArticle (ex_wiki []) !"en.wikipedia.org" !"Bali") 2 /\
  staff s = map (fun j => (j, Free (TRet (Ok (Article !"island" !"island"))))) jobs /\ downloads (article_url ex_ext !"en.wikipedia.org" !"Bali") (traffic s) = 2.
Proof.
  destruct (schedule_once ex_ext ex_two_wikis cfg_keep
    (repeat (Start (GetArticle (ex_wiki []) !"en.wikipedia.org" !"Bali")) 2 ++ repeat (Act 0) 3 ++ repeat (Act 1) 14 ++ repeat (Act 0) 11)
    ([], mkCrowd [] (mkWorld [] 0) [])) as [[J s]|] eqn:E; [|vm_compute in E; discriminate].
  assert (R : mixed ex_ext J s) by (eapply schedule_mixed; [|apply (mixed_begin ex_ext (mkWorld [] 0)); reflexivity|exact E]; vm_compute; discriminate).
  vm_compute in E. injection E as <- <-. eexists _, _. split; [exact R|]. split; [reflexivity|]. split; reflexivity.
Qed.
Print Assumptions C76_twice_refuted.

(** When the second worker begins later, the article is downloaded once. *)
Example C76_example_once : exists jobs s, mixed ex_ext jobs s /\ jobs = repeat (GetArticle (ex_wiki []) !"en.wikipedia.org" !"Bali") 2 /\
  staff s = map (fun j => (j, Free (TRet (Ok (Article !"island" !"island"))))) jobs /\ downloads (article_url ex_ext !"en.wikipedia.org" !"Bali") (traffic s) = 1.
Proof.
  destruct (schedule_once ex_ext ex_two_wikis cfg_keep
    (repeat (Start (GetArticle (ex_wiki []) !"en.wikipedia.org" !"Bali")) 2 ++ repeat (Act 0) 14 ++ repeat (Act 1) 5)
    ([], mkCrowd [] (mkWorld [] 0) [])) as [[J s]|] eqn:E; [|vm_compute in E; discriminate].
  assert (R : mixed ex_ext J s) by (eapply schedule_mixed; [|apply (mixed_begin ex_ext (mkWorld [] 0)); reflexivity|exact E]; vm_compute; discriminate).
  vm_compute in E. injection E as <- <-. eexists _, _. split; [exact R|]. split; [reflexivity|]. split; reflexivity.
Qed.
