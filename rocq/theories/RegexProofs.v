(** * The recognisers of the model are the regular expressions *)

From Coq Require Import Ascii String.
From Coq Require Import List Arith NArith Bool Lia.
From Verif Require Import GoStr GoStrFacts RegexSpec.
Import ListNotations.
Local Open Scope list_scope.

(** ** The first match that can be continued *)

Section Try.
Context {A : Type}.
Fixpoint try (l : list match_result) (k : match_result -> option A) : option A :=
  match l with
  | [] => None
  | x :: l' => match k x with Some a => Some a | None => try l' k end
  end.
Definition run (r : regex) (s : str) (k : match_result -> option A) : option A := try (results r s) k.

Lemma try_ext : forall l k k', (forall x, k x = k' x) -> try l k = try l k'.
Proof. induction l as [|x l IH]; intros k k' H; auto. cbn [try]. rewrite H, (IH k k' H). auto. Qed.
Lemma run_ext : forall r s k k', (forall x, k x = k' x) -> run r s k = run r s k'.
Proof. intros. apply try_ext. auto. Qed.
Lemma try_app : forall l l' k, try (l ++ l') k = match try l k with Some a => Some a | None => try l' k end.
Proof. induction l as [|x l IH]; intros; auto. cbn [app try]. destruct (k x); auto. Qed.
Lemma try_map : forall f l k, try (map f l) k = try l (fun x => k (f x)).
Proof. induction l as [|x l IH]; intros; auto. cbn [map try]. rewrite IH. auto. Qed.
Lemma try_flat_map : forall f l k, try (flat_map f l) k = try l (fun x => try (f x) k).
Proof. induction l as [|x l IH]; intros; auto. cbn [flat_map try]. rewrite try_app, IH. auto. Qed.
Lemma try_none : forall l, try l (fun _ => None) = None.
Proof. induction l as [|x l IH]; auto. Qed.

Lemma run_seq : forall a b s k, run (Seq a b) s k = run a s (fun x => run b (fst x) (fun y => k (fst y, snd y ++ snd x))).
Proof. intros. unfold run. cbn [results]. rewrite try_flat_map. apply try_ext. intros x. unfold andthen. rewrite try_map. auto. Qed.
Lemma run_alt : forall a b s k, run (Alt a b) s k = match run a s k with Some x => Some x | None => run b s k end.
Proof. intros. unfold run. cbn [results]. apply try_app. Qed.
Lemma run_group : forall n a s k, run (Group n a) s k = run a s (fun x => k (fst x, (n, firstn (length s - length (fst x)) s) :: snd x)).
Proof. intros. unfold run. cbn [results]. apply try_map. Qed.
Lemma run_empty : forall s k, run Empty s k = k (s, []).
Proof. intros. unfold run. cbn [results try]. destruct (k (s, [])); auto. Qed.
Lemma run_char : forall p s k, run (Char p) s k = match s with c :: s' => if p c then k (s', []) else None | [] => None end.
Proof. intros p [|c s] k; auto. unfold run. cbn [results]. destruct (p c); auto. cbn [try]. destruct (k (s, [])); auto. Qed.
Lemma run_end : forall s k, run EndOfText s k = match s with [] => k ([], []) | _ => None end.
Proof. intros [|c s] k; [|reflexivity]. change (match k ([], []) with Some a => Some a | None => None end = k ([], [])). destruct (k ([], [])); reflexivity. Qed.
Lemma run_cons : forall a l s k, run (sequence (a :: l)) s k = run a s (fun x => run (sequence l) (fst x) (fun y => k (fst y, snd y ++ snd x))).
Proof. intros. apply run_seq. Qed.
Lemma run_nil : forall s k, run (sequence []) s k = k (s, []).
Proof. intros. apply run_empty. Qed.

Lemma run_word : forall w s k, run (word w) s k = if has_prefix w s then k (skipn (length w) s, []) else None.
Proof.
  induction w as [|c w IH]; intros s k; [cbn [word map sequence]; rewrite run_empty; destruct s; auto|]. unfold word. cbn [map]. rewrite run_cons. unfold is. rewrite run_char.
  destruct s as [|d s]; auto. cbn [has_prefix length skipn]. destruct (Ascii.eqb c d); auto. cbn [fst snd andb]. fold (word w). rewrite IH. auto.
Qed.

Lemma run_word_i : forall w s k, run (word_i w) s k = if has_prefix (to_lower w) (to_lower s) then k (skipn (length w) s, []) else None.
Proof.
  induction w as [|c w IH]; intros s k; [cbn [word_i map sequence]; rewrite run_empty; destruct s; auto|]. unfold word_i. cbn [map]. rewrite run_cons. rewrite run_char.
  destruct s as [|d s]; auto. cbn [has_prefix length skipn to_lower map]. destruct (Ascii.eqb (lower_char c) (lower_char d)); auto. cbn [fst snd andb]. fold (word_i w). rewrite IH. auto.
Qed.

(** As few, or as many, characters as possible *)
Fixpoint lazily (p : ascii -> bool) (s : str) (k : str -> option A) : option A :=
  match k s with
  | Some a => Some a
  | None => match s with c :: s' => if p c then lazily p s' k else None | [] => None end
  end.
Fixpoint greedily (p : ascii -> bool) (s : str) (k : str -> option A) : option A :=
  match s with
  | c :: s' => if p c then match greedily p s' k with Some a => Some a | None => k s end else k s
  | [] => k s
  end.

Lemma lazily_ext : forall p s k k', (forall x, k x = k' x) -> lazily p s k = lazily p s k'.
Proof. induction s as [|c s IH]; intros k k' H; cbn [lazily]; rewrite H; auto. rewrite (IH k k' H). auto. Qed.
Lemma greedily_ext : forall p s k k', (forall x, k x = k' x) -> greedily p s k = greedily p s k'.
Proof. induction s as [|c s IH]; intros k k' H; cbn [greedily]; rewrite ?H; auto. rewrite (IH k k' H). auto. Qed.

Lemma run_lazily : forall p s k, run (Star false (Char p)) s k = lazily p s (fun x => k (x, [])).
Proof.
  intros p s. unfold run. cbn [results]. induction s as [|c s IH]; intros k; cbn [length repeated flat_map try lazily]; [auto|].
  destruct (p c); [|destruct (k _); reflexivity]. cbn [flat_map fst]. replace (length s <? S (length s)) with true by (symmetry; apply Nat.ltb_lt; lia).
  rewrite app_nil_r. unfold andthen. rewrite try_map. rewrite <- IH.
  rewrite (try_ext _ (fun x => k (fst x, snd x ++ snd (s, @nil (nat * str)))) k) by (intros [x g]; cbn [fst snd]; rewrite app_nil_r; auto). reflexivity.
Qed.
Lemma run_greedily : forall p s k, run (Star true (Char p)) s k = greedily p s (fun x => k (x, [])).
Proof.
  intros p s. unfold run. cbn [results]. induction s as [|c s IH]; intros k; cbn [length repeated flat_map greedily].
  - cbn [app try]. destruct (k _); reflexivity.
  - rewrite try_app. destruct (p c); [|cbn [flat_map try app]; destruct (k _); reflexivity]. cbn [flat_map fst]. replace (length s <? S (length s)) with true by (symmetry; apply Nat.ltb_lt; lia).
    rewrite app_nil_r. unfold andthen. rewrite try_map. rewrite <- IH.
    rewrite (try_ext _ (fun x => k (fst x, snd x ++ snd (s, @nil (nat * str)))) k) by (intros [x g]; cbn [fst snd]; rewrite app_nil_r; auto).
    cbn [try]. destruct (try _ k); auto. destruct (k _); reflexivity.
Qed.
End Try.

Lemma match_run : forall r s, match_here r s = run r s (fun x => Some (mkFound 0 (firstn (length s - length (fst x)) s) (snd x))).
Proof. intros r s. unfold match_here, run. destruct (results r s) as [|[x g] l]; reflexivity. Qed.

(** What has been read *)
Lemma taken : forall m rest : str, firstn (length (m ++ rest) - length rest) (m ++ rest) = m.
Proof. intros. rewrite app_length. replace (length m + length rest - length rest) with (length m) by lia. rewrite firstn_app, Nat.sub_diag, firstn_O, app_nil_r. apply firstn_all. Qed.
Lemma taken_skipn : forall n (s : str), n <= length s -> firstn (length s - length (skipn n s)) s = firstn n s.
Proof. intros n s L. rewrite skipn_length. f_equal. lia. Qed.

Lemma prefix_skipn : forall w s : str, skipn (length w) (w ++ s) = s.
Proof. intros. rewrite skipn_app, skipn_all, Nat.sub_diag. auto. Qed.

(** ** Up to a character *)

Fixpoint upto (p : ascii -> bool) (d : ascii) (s : str) : option nat :=
  match s with
  | [] => None
  | c :: s' => if Ascii.eqb c d then Some 0 else if p c then option_map S (upto p d s') else None
  end.

Lemma lazily_upto : forall A p d s (g : str -> A), lazily p s (fun x => if has_prefix [d] x then Some (g (skipn 1 x)) else None) = option_map (fun i => g (skipn (S i) s)) (upto p d s).
Proof.
  intros A p d s g. induction s as [|c s IH]; [reflexivity|]. cbn [lazily upto]. rewrite has_prefix_single, (Ascii.eqb_sym d c). destruct (Ascii.eqb c d) eqn:E; [reflexivity|].
  destruct (p c); [|reflexivity]. rewrite IH. destruct (upto p d s); reflexivity.
Qed.

Lemma upto_length : forall p d s i, upto p d s = Some i -> i < length s.
Proof.
  induction s as [|c s IH]; intros i E; [discriminate|]. cbn [upto] in E. destruct (Ascii.eqb c d); [injection E as <-; cbn; lia|].
  destruct (p c); [|discriminate]. destruct (upto p d s) as [j|]; [|discriminate]. injection E as <-. specialize (IH j eq_refl). cbn. lia.
Qed.

(** Up to a word *)
Lemma lazily_index : forall A w s (g : str -> A), lazily (fun _ => true) s (fun x => if has_prefix w x then Some (g (skipn (length w) x)) else None) =
  option_map (fun i => g (skipn (i + length w) s)) (index w s).
Proof.
  intros A w s g. induction s as [|c s IH].
  - cbn [lazily index]. destruct (has_prefix w []) eqn:E; reflexivity.
  - cbn [lazily index]. destruct (has_prefix w (c :: s)) eqn:E; [reflexivity|]. rewrite IH. destruct (index w s); reflexivity.
Qed.

Lemma greedily_all : forall A p s (g : str -> A), exists n, greedily p s (fun x => Some (g x)) = Some (g (skipn n s)) /\
  Forall (fun c => p c = true) (firstn n s) /\ (forall c x, skipn n s = c :: x -> p c = false) /\ n <= length s.
Proof.
  intros A p s g. induction s as [|c s IH].
  - exists 0. split; [reflexivity|]. split; [constructor|]. split; [|auto]. intros c x K. discriminate K.
  - cbn [greedily]. destruct (p c) eqn:P.
    + destruct IH as (n & E & F & N & L). exists (S n). rewrite E. cbn [firstn skipn length]. split; [reflexivity|]. split; [constructor; auto|]. split; [auto|lia].
    + exists 0. split; [reflexivity|]. split; [constructor|]. split; [|lia]. cbn [skipn]. intros c' x K. injection K as -> ->. auto.
Qed.

(** ** Searching *)

Definition is_some {A} (o : option A) : bool := match o with Some _ => true | None => false end.

(** All matches, as the model looks for them *)
Section Scan.
Context {B : Type}.
Variables (r : regex) (h : found -> B) (m : str -> option B) (len : B -> nat).
Hypothesis here : forall s, option_map h (match_here r s) = m s.
Hypothesis moved : forall p x g, h (mkFound p x g) = h (mkFound 0 x g).
Hypothesis measured : forall f, len (h f) = length (matched f).
Hypothesis nonempty : forall s f, match_here r s = Some f -> 0 < length (matched f).

Fixpoint scan (s : str) (skip : nat) : list B :=
  match s with
  | [] => []
  | _ :: s' =>
      match skip with
      | S k => scan s' k
      | O => match m s with Some b => b :: scan s' (pred (len b)) | None => scan s' 0 end
      end
  end.

Lemma scan_skip : forall s k, scan s k = scan (skipn k s) 0.
Proof. induction s as [|c s IH]; intros [|k]; try reflexivity. cbn [scan skipn]. apply IH. Qed.

Lemma match_position : forall s f, match_here r s = Some f -> position f = 0.
Proof. intros s f E. unfold match_here in E. destruct (results r s) as [|[x g] l]; [discriminate|]. injection E as <-. auto. Qed.

Lemma scan_find : forall s, scan s 0 = match find r s with Some f => h f :: scan (skipn (position f + length (matched f)) s) 0 | None => [] end.
Proof.
  induction s as [|c s IH].
  - cbn [scan find]. pose proof (nonempty []) as N. destruct (match_here r []) as [f|] eqn:E; auto. exfalso. specialize (N f eq_refl).
    unfold match_here in E. destruct (results r []) as [|[x g] l]; [discriminate|]. injection E as <-. cbn [matched] in N. destruct (length x); cbn in N; lia.
  - cbn [scan find]. rewrite <- here. destruct (match_here r (c :: s)) as [f|] eqn:E.
    + cbn [option_map]. f_equal. rewrite scan_skip, measured, (match_position _ _ E). pose proof (nonempty _ _ E) as N. destruct (length (matched f)); [lia|]. reflexivity.
    + cbn [option_map]. rewrite IH. destruct (find r s) as [[p x g]|]; auto. cbn [option_map position matched groups]. rewrite (moved (S p)), (moved p). reflexivity.
Qed.

Theorem scan_all : forall s, map h (find_all r s) = scan s 0.
Proof.
  intros s. unfold find_all. assert (L : length s < S (length s)) by lia. revert L. generalize (S (length s)) as n. intros n. revert s.
  induction n as [|n IH]; intros s L; [lia|]. cbn [find_all_go]. rewrite scan_find. destruct (find r s) as [f|] eqn:E; [|reflexivity]. cbn [map]. f_equal. apply IH.
  assert (N : 0 < length (matched f) /\ 0 < length s).
  { clear - E nonempty. revert f E. induction s as [|c s IH]; intros f E; cbn [find] in E.
    - destruct (match_here r []) as [f'|] eqn:K; [|discriminate]. injection E as ->. pose proof (nonempty _ _ K) as N. exfalso.
      unfold match_here in K. destruct (results r []) as [|[x g] l]; [discriminate|]. injection K as <-. cbn [matched] in N. destruct (length x); cbn in N; lia.
    - split; [|cbn; lia]. destruct (match_here r (c :: s)) as [f'|] eqn:K; [injection E as ->; eapply nonempty; eauto|].
      destruct (find r s) as [f'|]; [|discriminate]. injection E as <-. cbn [matched]. apply (IH f' eq_refl). }
  rewrite skipn_length. lia.
Qed.
End Scan.

(** ** Without groups *)
Section Go.
Context {A : Type}.
Definition go (r : regex) (s : str) (k : str -> option A) : option A := run r s (fun x => k (fst x)).
Lemma go_ext : forall r s k k', (forall x, k x = k' x) -> go r s k = go r s k'.
Proof. intros. apply run_ext. auto. Qed.
Lemma go_seq : forall a b s k, go (Seq a b) s k = go a s (fun x => go b x k).
Proof. intros. unfold go. rewrite run_seq. reflexivity. Qed.
Lemma go_cons : forall a l s k, go (sequence (a :: l)) s k = go a s (fun x => go (sequence l) x k).
Proof. intros. apply go_seq. Qed.
Lemma go_nil : forall s k, go (sequence []) s k = k s.
Proof. intros. unfold go. apply run_nil. Qed.
Lemma go_alt : forall a b s k, go (Alt a b) s k = match go a s k with Some x => Some x | None => go b s k end.
Proof. intros. unfold go. apply run_alt. Qed.
Lemma go_group : forall n a s k, go (Group n a) s k = go a s k.
Proof. intros. unfold go. apply run_group. Qed.
Lemma go_empty : forall s k, go Empty s k = k s.
Proof. intros. unfold go. apply run_empty. Qed.
Lemma go_char : forall p s k, go (Char p) s k = match s with c :: s' => if p c then k s' else None | [] => None end.
Proof. intros. unfold go. apply run_char. Qed.
Lemma go_end : forall s k, go EndOfText s k = match s with [] => k [] | _ => None end.
Proof. intros. unfold go. apply run_end. Qed.
Lemma go_word : forall w s k, go (word w) s k = if has_prefix w s then k (skipn (length w) s) else None.
Proof. intros. unfold go. apply run_word. Qed.
Lemma go_word_i : forall w s k, go (word_i w) s k = if has_prefix (to_lower w) (to_lower s) then k (skipn (length w) s) else None.
Proof. intros. unfold go. apply run_word_i. Qed.
Lemma go_lazily : forall p s k, go (Star false (Char p)) s k = lazily p s k.
Proof. intros. unfold go. rewrite run_lazily. reflexivity. Qed.
Lemma go_greedily : forall p s k, go (Star true (Char p)) s k = greedily p s k.
Proof. intros. unfold go. rewrite run_greedily. reflexivity. Qed.
End Go.

Lemma match_go : forall r s, option_map matched (match_here r s) = go r s (fun x => Some (firstn (length s - length x) s)).
Proof. intros r s. unfold match_here, go, run. destruct (results r s) as [|[x g] l]; reflexivity. Qed.
Lemma some_go : forall r s, is_some (match_here r s) = is_some (go r s Some).
Proof. intros r s. unfold match_here, go, run. destruct (results r s) as [|[x g] l]; reflexivity. Qed.

(** ** Repetitions of any character, with groups *)

Lemma run_map : forall A B (f : A -> B) r s k, option_map f (run r s k) = run r s (fun x => option_map f (k x)).
Proof. intros A B f r s k. unfold run. induction (results r s) as [|x l IH]; [reflexivity|]. cbn [try]. destruct (k x); [reflexivity|]. cbn [option_map]. exact IH. Qed.

Lemma try_same : forall A l (k : match_result -> option A) v, l <> [] -> Forall (fun x => k x = v) l -> try l k = v.
Proof.
  intros A l k v N F. destruct l as [|x l]; [contradiction|]. clear N. revert x F. induction l as [|y l IH]; intros x F; cbn [try].
  - rewrite (Forall_inv F). destruct v; auto.
  - rewrite (Forall_inv F). destruct v; auto. apply (IH y). exact (Forall_inv_tail F).
Qed.

Lemma repeated_lazily : forall A f, f [] = [] -> (forall c s, f (c :: s) <> [] /\ Forall (fun x => fst x = s) (f (c :: s))) ->
  forall s (k : match_result -> option A) k', (forall x g, k (x, g) = k' x) -> try (repeated false f (length s) s) k = lazily (fun _ => true) s k'.
Proof.
  intros A f F0 F. induction s as [|c s IH]; intros k k' K.
  - cbn [length repeated try lazily]. rewrite K. reflexivity.
  - cbn [length repeated try lazily]. rewrite K. destruct (k' (c :: s)); [reflexivity|]. rewrite try_flat_map. destruct (F c s) as [N E]. apply try_same; [exact N|].
    eapply Forall_impl; [|exact E]. intros [x g] Ex. cbn [fst] in *. subst x. replace (length s <? S (length s)) with true by (symmetry; apply Nat.ltb_lt; lia).
    unfold andthen. rewrite try_map. apply IH. intros. apply K.
Qed.

Lemma lazily_none : forall A p s (k : str -> option A), (forall a b, s = a ++ b -> k b = None) -> lazily p s k = None.
Proof.
  induction s as [|c s IH]; intros k H; cbn [lazily]; rewrite (H [] _ eq_refl); auto. destruct (p c); auto. apply IH. intros a b E. apply (H (c :: a)). rewrite E. auto.
Qed.

Lemma lazily_first : forall A p d s (k : str -> option A), (forall c x, k (c :: x) = None -> k x = None) ->
  lazily p s (fun x => if has_prefix [d] x then k (skipn 1 x) else None) = match upto p d s with Some i => k (skipn (S i) s) | None => None end.
Proof.
  intros A p d s k N. assert (M : forall a b, k (a ++ b) = None -> k b = None) by (induction a as [|c a IH]; cbn [app]; eauto).
  induction s as [|c s IH]; [reflexivity|]. cbn [lazily upto]. rewrite has_prefix_single, (Ascii.eqb_sym d c). destruct (Ascii.eqb c d) eqn:E.
  - cbn [skipn]. destruct (k s) eqn:K; [reflexivity|]. destruct (p c); auto. apply lazily_none. intros a b -> . destruct (has_prefix [d] b) eqn:H; auto.
    apply has_prefix_spec in H as (t & ->). cbn [app skipn] in *. apply (M (a ++ [d])). rewrite <- app_assoc. exact K.
  - destruct (p c); [|reflexivity]. rewrite IH. destruct (upto p d s); reflexivity.
Qed.

Lemma lazily_ext_suffix : forall A p s (k k' : str -> option A), (forall a x, s = a ++ x -> k x = k' x) -> lazily p s k = lazily p s k'.
Proof.
  induction s as [|c s IH]; intros k k' F; cbn [lazily]; rewrite (F [] _ eq_refl); auto. destruct (k' (c :: s)); auto. destruct (p c); auto.
  apply IH. intros a x E. apply (F (c :: a)). rewrite E. auto.
Qed.
