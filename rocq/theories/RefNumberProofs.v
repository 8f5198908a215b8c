(** * Proofs about the numbers of footnotes *)

From Coq Require Import Ascii String.
From Coq Require Import List Arith Bool Lia Sorted.
From Verif Require Import GoStr GoStrFacts TokenModel PassSpec ReferenceModel ReferenceSpec.
Import ListNotations.
Local Open Scope list_scope.

Lemma opt_eqb_eq : forall a b, opt_eqb a b = true <-> a = b.
Proof.
  intros [a|] [b|]; cbn; split; intros H; try discriminate; auto.
  - apply str_eqb_eq in H. congruence.
  - injection H as ->. apply str_eqb_refl.
Qed.
Lemma opt_eqb_refl : forall a, opt_eqb a a = true.
Proof. intros. apply opt_eqb_eq. auto. Qed.
Lemma opt_eqb_neq : forall a b, opt_eqb a b = false <-> a <> b.
Proof. intros. rewrite <- opt_eqb_eq, not_true_iff_false. tauto. Qed.

Definition seen (name : str) (l : list (option str)) : bool := existsb (opt_eqb (Some name)) l.

Lemma footnotes_snoc : forall g b e, footnotes g (b ++ [e]) = add_footnote g (footnotes g b) e.
Proof. intros. unfold footnotes. rewrite fold_left_app. reflexivity. Qed.

Lemma add_footnote_length : forall g l e, length l <= length (add_footnote g l e).
Proof.
  intros g l e. destruct e as [g' [n|] b|g']; cbn [add_footnote]; auto; destruct (opt_eqb g g'); auto.
  - destruct (existsb _ l); auto. rewrite app_length. lia.
  - rewrite app_length. lia.
Qed.

Lemma footnotes_length : forall g a b, length (footnotes g a) <= length (footnotes g (a ++ b)).
Proof.
  intros g a b. revert a. induction b as [|e b IH]; intros a; [rewrite app_nil_r; auto|].
  replace (a ++ e :: b) with ((a ++ [e]) ++ b) by (rewrite <- app_assoc; auto). rewrite <- IH, footnotes_snoc. apply add_footnote_length.
Qed.

Lemma position_seen : forall n l, seen n l = true -> position n l < length l.
Proof.
  intros n l. induction l as [|x l IH]; intros H; [discriminate|]. cbn [position length]. unfold seen in *. cbn [existsb] in H. destruct (opt_eqb (Some n) x); [lia|].
  cbn [orb] in H. specialize (IH H). lia.
Qed.

Lemma position_unseen : forall n l, seen n l = false -> position n l = length l.
Proof.
  intros n l. induction l as [|x l IH]; intros H; auto. cbn [position length]. unfold seen in *. cbn [existsb] in H. destruct (opt_eqb (Some n) x); [discriminate|].
  cbn [orb] in H. auto.
Qed.

Lemma position_app : forall n l x, seen n l = true -> position n (l ++ x) = position n l.
Proof.
  intros n l x. induction l as [|y l IH]; intros H; [discriminate|]. cbn [app position]. unfold seen in *. cbn [existsb] in H. destruct (opt_eqb (Some n) y); auto.
Qed.

Lemma position_nth : forall n l, seen n l = true -> nth_error l (position n l) = Some (Some n).
Proof.
  intros n l. induction l as [|y l IH]; intros H; [discriminate|]. cbn [position]. unfold seen in *. cbn [existsb] in H. destruct (opt_eqb (Some n) y) eqn:E; auto.
  apply opt_eqb_eq in E. subst. auto.
Qed.

Lemma seen_app : forall n l x, seen n (l ++ [x]) = seen n l || opt_eqb (Some n) x.
Proof. intros. unfold seen. rewrite existsb_app. cbn [existsb]. rewrite orb_false_r. auto. Qed.

Lemma number_lt : forall past g name body, number past g name < length (footnotes g (past ++ [Mark g name body])).
Proof.
  intros past g name body. rewrite footnotes_snoc. cbn [add_footnote]. rewrite opt_eqb_refl. destruct name as [n|]; cbn [number].
  - change (existsb (opt_eqb (Some n)) (footnotes g past)) with (seen n (footnotes g past)). destruct (seen n _) eqn:S.
    + apply position_seen. auto.
    + rewrite position_unseen, app_length by auto. cbn [length]. lia.
  - rewrite app_length. cbn [length]. lia.
Qed.

(** ** The texts that are not listed yet *)

Fixpoint pend (g : option str) (latest_first : list event) : list (nat * str) :=
  match latest_first with
  | [] => []
  | Mark g' name body :: es =>
      match body with
      | Some b => if opt_eqb g g' then (number (rev es) g name, b) :: pend g es else pend g es
      | None => pend g es
      end
  | Listing g' :: es => if opt_eqb g g' then [] else pend g es
  end.
Definition pending (g : option str) (before : list event) : list (nat * str) := pend g (rev before).

Lemma pending_snoc : forall g b e, pending g (b ++ [e]) =
  match e with
  | Mark g' name body =>
      match body with
      | Some x => if opt_eqb g g' then (number b g name, x) :: pending g b else pending g b
      | None => pending g b
      end
  | Listing g' => if opt_eqb g g' then [] else pending g b
  end.
Proof. intros. unfold pending. rewrite rev_app_distr. cbn [rev app pend]. destruct e as [g' n [x|]|g']; auto. rewrite rev_involutive. auto. Qed.

Lemma pending_lt : forall g b, Forall (fun p => fst p < length (footnotes g b)) (pending g b).
Proof.
  intros g b. induction b as [|e b IH] using rev_ind; [constructor|]. rewrite pending_snoc.
  assert (IH' : Forall (fun p => fst p < length (footnotes g (b ++ [e]))) (pending g b)).
  { eapply Forall_impl; [|exact IH]. cbn. intros p H. eapply Nat.lt_le_trans; [exact H|apply footnotes_length]. }
  destruct e as [g' n [x|]|g']; auto; destruct (opt_eqb g g') eqn:E; auto. constructor; auto. apply opt_eqb_eq in E. subst. apply number_lt.
Qed.

Definition shown (before : list event) (g : option str) (n : nat) (body : str) : Prop :=
  exists past name since, before = past ++ Mark g name (Some body) :: since /\ number past g name = n /\
    ~ In (Listing g) since /\
    (forall since1 name' body' since2, since = since1 ++ Mark g name' (Some body') :: since2 ->
       number (past ++ Mark g name (Some body) :: since1) g name' <> n).

Lemma snoc_cases : forall A (l : list A), l = [] \/ exists l' x, l = l' ++ [x].
Proof. intros A l. destruct l as [|a l] using rev_ind; [auto|]. right. eauto. Qed.

(** An event that neither lists nor defines a footnote of the group *)
Lemma shown_skip : forall before g n body e, e <> Listing g -> (forall name x, e <> Mark g name (Some x)) -> (shown (before ++ [e]) g n body <-> shown before g n body).
Proof.
  intros before g n body e N1 N2. split; intros (past & name & since & E & En & NL & ND).
  - destruct (snoc_cases _ since) as [->|(since' & x & ->)].
    + apply app_inj_tail in E as [_ E]. exfalso. eapply N2; eauto.
    + rewrite app_comm_cons, app_assoc in E. apply app_inj_tail in E as [-> <-]. exists past, name, since'. repeat split; auto.
      * intros I. apply NL. apply in_or_app. auto.
      * intros s1 nm b s2 ->. apply (ND s1 nm b (s2 ++ [e])). rewrite <- app_assoc. auto.
  - exists past, name, (since ++ [e]). split; [rewrite E, <- app_assoc; auto|]. repeat split; auto.
    + intros I. apply in_app_or in I as [I|[I|[]]]; auto.
    + intros s1 nm b s2 Es. destruct (snoc_cases _ s2) as [->|(s2' & x & ->)].
      * apply app_inj_tail in Es as [_ Es]. exfalso. eapply N2; eauto.
      * rewrite app_comm_cons, app_assoc in Es. apply app_inj_tail in Es as [-> <-]. eapply ND; eauto.
Qed.

Lemma pending_shown : forall g before n body, get_content n (pending g before) = Some body <-> shown before g n body.
Proof.
  intros g before. induction before as [|e before IH] using rev_ind; intros n body.
  - split; [discriminate|]. intros (past & name & since & E & _). apply app_cons_not_nil in E. destruct E.
  - rewrite pending_snoc. destruct e as [g' nm [x|]|g'].
    + destruct (opt_eqb g g') eqn:Eg.
      * apply opt_eqb_eq in Eg. subst g'. cbn [get_content]. destruct (Nat.eqb_spec n (number before g nm)) as [->|Nn].
        -- split.
           ++ intros E. injection E as ->. exists before, nm, []. repeat split; auto. intros s1 ? ? ? E. apply app_cons_not_nil in E. destruct E.
           ++ intros (past & name & since & E & En & NL & ND). destruct (snoc_cases _ since) as [->|(since' & y & ->)].
              ** apply app_inj_tail in E as [_ E]. injection E as _ ->. auto.
              ** rewrite app_comm_cons, app_assoc in E. apply app_inj_tail in E as [-> <-]. exfalso. apply (ND since' nm x []); auto.
        -- rewrite IH. split; intros (past & name & since & E & En & NL & ND).
           ++ exists past, name, (since ++ [Mark g nm (Some x)]). split; [rewrite E, <- app_assoc; auto|]. repeat split; auto.
              ** intros I. apply in_app_or in I as [I|[I|[]]]; auto. discriminate.
              ** intros s1 nm' b s2 Es. destruct (snoc_cases _ s2) as [->|(s2' & y & ->)].
                 --- apply app_inj_tail in Es as [-> Es]. injection Es as -> ->. rewrite <- E. auto.
                 --- rewrite app_comm_cons, app_assoc in Es. apply app_inj_tail in Es as [-> _]. eapply ND; eauto.
           ++ destruct (snoc_cases _ since) as [->|(since' & y & ->)].
              ** apply app_inj_tail in E as [-> E]. injection E as -> ->. congruence.
              ** rewrite app_comm_cons, app_assoc in E. apply app_inj_tail in E as [-> <-]. exists past, name, since'. repeat split; auto.
                 --- intros I. apply NL. apply in_or_app. auto.
                 --- intros s1 nm' b s2 ->. apply (ND s1 nm' b (s2 ++ [Mark g nm (Some x)])). rewrite <- app_assoc. auto.
      * rewrite IH, shown_skip; [tauto|discriminate|]. apply opt_eqb_neq in Eg. intros ? ? E. injection E as -> _ _. auto.
    + rewrite IH, shown_skip; [tauto|discriminate|]. intros ? ?. discriminate.
    + destruct (opt_eqb g g') eqn:Eg.
      * apply opt_eqb_eq in Eg. subst g'. split; [discriminate|]. intros (past & name & since & E & En & NL & ND).
        destruct (snoc_cases _ since) as [->|(since' & y & ->)].
        -- apply app_inj_tail in E as [_ E]. discriminate.
        -- rewrite app_comm_cons, app_assoc in E. apply app_inj_tail in E as [-> <-]. exfalso. apply NL. apply in_or_app. right. left. auto.
      * rewrite IH, shown_skip; [tauto| |intros ? ?; discriminate]. apply opt_eqb_neq in Eg. intros E. injection E as ->. auto.
Qed.

(** The texts in the order of their numbers *)
Definition pick (l : list (nat * str)) (n : nat) : list (nat * str) := match get_content n l with Some b => [(n, b)] | None => [] end.

Lemma pick_sorted : forall l k start, StronglySorted lt (map fst (flat_map (pick l) (seq start k))) /\ Forall (fun n => start <= n) (map fst (flat_map (pick l) (seq start k))).
Proof.
  intros l k. induction k as [|k IH]; intros start; cbn [seq flat_map map]; [split; constructor|]. destruct (IH (S start)) as [S F]. rewrite map_app.
  assert (F' : Forall (fun n => start <= n) (map fst (flat_map (pick l) (seq (Datatypes.S start) k)))) by (eapply Forall_impl; [|exact F]; cbn; intros; lia).
  unfold pick at 1 3. destruct (get_content start l); cbn [map app fst]; auto. split; constructor; auto.
Qed.

Lemma get_content_In : forall n l b, get_content n l = Some b -> In (n, b) l.
Proof.
  intros n l b. induction l as [|[m c] l IH]; intros H; [discriminate|]. cbn [get_content] in H. destruct (Nat.eqb_spec n m) as [->|].
  - injection H as ->. left. auto.
  - right. auto.
Qed.

Lemma pick_listed : forall before g, listed before g (flat_map (pick (pending g before)) (seq 0 (length (footnotes g before)))).
Proof.
  intros before g. split; [apply pick_sorted|]. intros n body. rewrite in_flat_map.
  change ((exists x, In x (seq 0 (length (footnotes g before))) /\ In (n, body) (pick (pending g before) x)) <-> shown before g n body).
  rewrite <- pending_shown. split.
  - intros (m & _ & I). unfold pick in I. destruct (get_content m _) eqn:E; [|destruct I]. destruct I as [I|[]]. injection I as -> ->. auto.
  - intros H. exists n. split.
    + apply get_content_In in H. pose proof (pending_lt g before) as F. rewrite Forall_forall in F. apply F in H. cbn in H. apply in_seq. lia.
    + unfold pick. rewrite H. left. auto.
Qed.
