(** * Token keys are unique and can be resolved (C17, C18) *)

From Coq Require Import Ascii String.
From Coq Require Import List Arith ZArith Bool Lia.
From Verif Require Import GoStr GoStrFacts ConfigModel TokenModel TokenSpec TokenProofs TokenizerModel ImageClosing PassProofs BlockPassProofs RefineProofs.
Import ListNotations.
Local Open Scope list_scope.

Lemma new_ok : forall b, ok b NewTokenizer.
Proof. intros b. split; [split; constructor|]. intros _. constructor. Qed.

(** Keys that are created one after another are different, whatever their types are. *)
Theorem C17_keys : forall types t keys t', mapM getToken types t = Ok (keys, t') -> NoDup keys.
Proof.
  assert (H : forall types t keys t', mapM getToken types t = Ok (keys, t') -> NoDup keys /\ Forall (key_from (tokenCounter t)) keys).
  { induction types as [|ty types IH]; intros t keys t' E; cbn [mapM] in E.
    - injection E as <- _. split; constructor.
    - unfold bindM in E. cbn [getToken bind] in E. destruct (mapM getToken types _) as [[ks t2]| | |] eqn:Er; try discriminate. cbn in E. injection E as <- _.
      destruct (IH _ _ _ Er) as [N F]. cbn [tokenCounter] in F. split.
      + constructor; auto. intros I. rewrite Forall_forall in F. destruct (F _ I) as (ty' & i & E' & L). apply token_key_inj in E' as [_ E']. lia.
      + constructor; [exists ty, (tokenCounter t); auto|]. eapply Forall_impl; [|exact F]. intros k (ty' & i & -> & L). exists ty', i. split; auto. lia. }
  intros types t keys t' E. apply (H _ _ _ _ E).
Qed.
Print Assumptions C17_keys.

(** No two tokens of an article have the same key. *)
Theorem C17_unique : forall cfg fuel content content' t,
  tokenizeContent cfg fuel content NewTokenizer = Ok (content', t) -> NoDup (map fst (tokenMap t)).
Proof.
  intros cfg fuel content content' t E. rewrite <- no_check in E.
  destruct (tokenizeContent_sound cfg false fuel NewTokenizer content (new_ok false) ltac:(discriminate) _ _ E) as (((_ & N) & _) & _). exact N.
Qed.
Print Assumptions C17_unique.

(** The condition [unique] on states of the tokenizer holds for all states that are reached. *)
Theorem C17_state : unique NewTokenizer /\
  forall cfg fuel text content t t', unique t -> tokenizeContent cfg fuel text t = Ok (content, t') -> unique t'.
Proof.
  split; [apply (new_ok false)|]. intros cfg fuel text content t t' U E.
  destruct (tokenizeContent_runs cfg fuel t text U _ _ E) as ((U' & _) & _). exact U'.
Qed.
Print Assumptions C17_state.

(** Tokens that exist when more text is parsed are still there afterwards and have not changed. *)
Theorem C17_kept : forall cfg fuel1 fuel2 text1 text2 content1 content2 t1 t2,
  tokenizeContent cfg fuel1 text1 NewTokenizer = Ok (content1, t1) -> tokenizeContent cfg fuel2 text2 t1 = Ok (content2, t2) ->
  forall key token, lookup_token key (tokenMap t1) = Some token -> lookup_token key (tokenMap t2) = Some token.
Proof.
  intros cfg fuel1 fuel2 text1 text2 content1 content2 t1 t2 E1 E2 key token L. rewrite <- no_check in E1, E2.
  destruct (tokenizeContent_sound cfg false fuel1 NewTokenizer text1 (new_ok false) ltac:(discriminate) _ _ E1) as (O1 & _).
  destruct (tokenizeContent_sound cfg false fuel2 t1 text2 O1 ltac:(discriminate) _ _ E2) as (((_ & N) & _) & (l & E & _) & _).
  apply In_lookup; auto. apply lookup_In in L. rewrite E. apply in_app_iff. auto.
Qed.
Print Assumptions C17_kept.

(** ** Keys can be resolved *)

Lemma resolvable_tail : forall m k v, resolvable_map m -> In (k, v) m -> Forall (resolvable m) (texts v).
Proof.
  induction 1 as [|k' v' m R IH F]; intros I; [destruct I|].
  assert (Mo : forall l, Forall (resolvable m) l -> Forall (resolvable ((k', v') :: m)) l).
  { intros l. apply Forall_impl. intros s. apply keyed_mono. intros x. rewrite !in_app_iff. cbn. tauto. }
  destruct I as [I|I]; [|auto]. injection I as -> ->. auto.
Qed.

(** Every key in the content and in every token is a key of the map, and the tokens only refer to older tokens, so that they can be
    expanded; for runs in which no image is closed by a single bracket directly in front of a dollar sign, that is, of a key or marker.  (Missing:
    images that are, see below.) *)
Theorem C18_resolvable_partial : forall cfg fuel content content' t, ~ In "$"%char content ->
  tokenizeContent_check true cfg fuel content NewTokenizer = Ok (content', t) ->
  tokenizeContent cfg fuel content NewTokenizer = Ok (content', t) /\
  resolvable (tokenMap t) content' /\
  (forall key token, lookup_token key (tokenMap t) = Some token -> Forall (resolvable (tokenMap t)) (texts token)) /\
  resolvable_map (tokenMap t).
Proof.
  intros cfg fuel content content' t D E. split; [apply checked_run; auto|].
  destruct (tokenizeContent_sound cfg true fuel NewTokenizer content (new_ok true) (good_plain true NewTokenizer content D) _ _ E) as ((_ & R) & _ & G).
  specialize (G eq_refl). specialize (R eq_refl). split; [exact G|]. split; auto.
  intros k v L. apply lookup_In in L. eapply resolvable_tail; eauto.
Qed.
Print Assumptions C18_resolvable_partial.

(** A text with resolvable keys contains four dollar signs for each of them. *)
Definition count_dollar (s : str) : nat := length (filter (Ascii.eqb "$") s).

Lemma atom_dollars : forall a, atom a -> count_dollar a = 4.
Proof.
  intros a (b & -> & _ & F). unfold count_dollar. rewrite !filter_app, !app_length.
  assert (E : filter (Ascii.eqb "$") b = []).
  { induction F as [|c b C F IH]; auto. cbn [filter]. destruct (Ascii.eqb "$" c) eqn:K; auto. apply Ascii.eqb_eq in K. subst. discriminate. }
  rewrite E. reflexivity.
Qed.

Lemma keyed_dollars : forall keys s, Forall atom keys -> keyed keys s -> Nat.divide 4 (count_dollar s).
Proof.
  intros keys s A K. induction K as [|c s C K IH|k s I K IH].
  - exists 0. auto.
  - unfold count_dollar in *. cbn [filter]. destruct (Ascii.eqb "$" c) eqn:E; auto. apply Ascii.eqb_eq in E. congruence.
  - unfold count_dollar in *. rewrite filter_app, app_length. apply Nat.divide_add_r; auto. fold (count_dollar k). rewrite atom_dollars; [exists 1; auto|].
    rewrite Forall_forall in A. auto.
Qed.

Definition default_config : configuration := NewDefaultConfig (mkEnvironment !"c" true true).

(** If an image is closed by a single bracket, the first character of a key behind it is dropped: parsing succeeds, but the keys cannot be
    resolved. *)
Theorem C18_refuted : exists content content' t, ~ In "$"%char content /\
  tokenizeContent default_config 4 content NewTokenizer = Ok (content', t) /\ ~ resolvable (tokenMap t) content'.
Proof.
  exists !"[[File:a.jpg]''b''". 
  destruct (tokenizeContent default_config 4 !"[[File:a.jpg]''b''" NewTokenizer) as [[content' t]| | |] eqn:E; vm_compute in E; try discriminate E.
  exists content', t. split; [|split]; auto.
  - intros H. repeat (destruct H as [H|H]; [discriminate H|]). destruct H.
  - intros H. assert (A : Forall atom (all_markers ++ map fst (tokenMap t))).
    { apply Forall_app. split; [apply markers_atom|]. injection E as _ <-. cbn. constructor; [|constructor]. apply (token_key_atom !"IMAGE_INLINE" 0).
      split; [discriminate|repeat constructor]. }
    apply keyed_dollars in H; auto. injection E as <- _. match type of H with Nat.divide _ ?x => let y := eval vm_compute in x in change x with y in H end.
    destruct H as (z & Z). lia.
Qed.
Print Assumptions C18_refuted.

(** A text with all kinds of markup: the hypotheses hold, and there are nested tokens. *)
Definition example_text : str := !"== A ''b'' ==
text [[a|''b'']] [[File:c.jpg|thumb|caption [[d]] ]] [http://x.y z]<ref>note</ref>
* item
** <math>x</math>
{|
! h
|-
| cell
|}
<gallery>
File:g.jpg|text
</gallery>
<references/>".

Example C17_C18_example : exists content' t, ~ In "$"%char example_text /\
  tokenizeContent_check true default_config 6 example_text NewTokenizer = Ok (content', t) /\ length (tokenMap t) = 12.
Proof.
  destruct (tokenizeContent_check true default_config 6 example_text NewTokenizer) as [[content' t]| | |] eqn:E; vm_compute in E; try discriminate E.
  exists content', t. split; [|split]; auto.
  - intros H. assert (K : existsb (Ascii.eqb "$") example_text = true) by (apply existsb_exists; exists "$"%char; auto). vm_compute in K. discriminate.
  - injection E as _ <-. reflexivity.
Qed.
