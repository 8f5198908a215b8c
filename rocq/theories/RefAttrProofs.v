(** * Proofs about the attributes of footnotes *)

From Coq Require Import Ascii String.
From Coq Require Import List Arith Bool Lia.
From Verif Require Import GoStr GoStrFacts TextFacts PassSpec ReferenceModel ReferenceSpec.
Import ListNotations.
Local Open Scope list_scope.

Lemma app_eq_sep : forall (c : ascii) x y a b, ~ In c x -> ~ In c a -> x ++ c :: y = a ++ c :: b -> x = a /\ y = b.
Proof.
  intros c x. induction x as [|d x IH]; intros y [|e a] b Nx Na E; cbn in E.
  - injection E as <-. auto.
  - injection E as <- _. exfalso. apply Na. left. auto.
  - injection E as <- _. exfalso. apply Nx. left. auto.
  - injection E as <- E. apply IH in E as [-> ->]; auto; intros I; [apply Nx|apply Na]; right; auto.
Qed.

(** The last occurrence of the separator before another one *)
Lemma app_sep_cases : forall (c : ascii) x y a b, ~ In c x -> x ++ c :: y = a ++ c :: b -> (x = a /\ y = b) \/ exists a', a = x ++ c :: a' /\ y = a' ++ c :: b.
Proof.
  intros c x. induction x as [|d x IH]; intros y [|e a] b Nx E; cbn in E.
  - injection E as <-. auto.
  - injection E as <- ->. right. exists a. auto.
  - injection E as <- _. exfalso. apply Nx. left. auto.
  - injection E as <- E. apply IH in E as [[-> ->]|(a' & -> & ->)]; auto.
    + right. exists a'. auto.
    + intros I. apply Nx. right. auto.
Qed.

Lemma suffix_no_sep : forall (c : ascii) p x a', ~ In c p -> has_suffix p (x ++ c :: a') = has_suffix p a'.
Proof.
  intros c p x a' Np. apply eq_true_iff_eq. rewrite !has_suffix_spec. split.
  - intros (t & E). revert t a' E. induction x as [|d x IH]; intros t a' E; cbn in E.
    + destruct t as [|e t].
      * cbn in E. exfalso. apply Np. rewrite <- E. left. auto.
      * injection E as _ ->. exists t. auto.
    + destruct t as [|e t].
      * cbn in E. exfalso. apply Np. rewrite <- E. right. apply in_or_app. right. left. auto.
      * injection E as _ E. eauto.
  - intros (t & ->). exists (x ++ c :: t). rewrite <- app_assoc. auto.
Qed.

Lemma contains_sep : forall c p q x y, ~ In c p -> ~ In c q -> ~ In c x ->
  contains (p ++ c :: q) (x ++ c :: y) = (has_suffix p x && has_prefix q y) || contains (p ++ c :: q) y.
Proof.
  intros c p q x y Np Nq Nx. apply eq_true_iff_eq. rewrite orb_true_iff, andb_true_iff, !contains_spec, has_suffix_spec, has_prefix_spec. split.
  - intros (a & b & E). replace (a ++ (p ++ c :: q) ++ b) with ((a ++ p) ++ c :: (q ++ b)) in E by (rewrite <- !app_assoc; auto).
    apply app_sep_cases in E as [[E1 E2]|(a' & E1 & E2)]; auto.
    + left. split; [exists a; auto|exists b; auto].
    + right. assert (S : has_suffix p (x ++ c :: a') = true) by (rewrite <- E1; apply has_suffix_app). rewrite suffix_no_sep in S; auto.
      apply has_suffix_spec in S as (t & ->). exists t, b. rewrite E2, <- !app_assoc. auto.
  - intros [[(t & ->) (u & ->)]|(a & b & ->)].
    + exists t, u. rewrite <- !app_assoc. auto.
    + exists (x ++ c :: a), b. rewrite <- !app_assoc. auto.
Qed.

Lemma contains_no_sep : forall c p q y, ~ In c y -> contains (p ++ c :: q) y = false.
Proof. intros c p q y N. apply contains_false. intros a b ->. apply N. rewrite !in_app_iff. right. left. right. left. auto. Qed.

Definition key_ok (n : str) : Prop := n = !"name" \/ n = !"group".

Lemma suffix_key : forall x n k, key_ok n -> key_ok k -> has_suffix (!" " ++ n) (x ++ !" " ++ k) = str_eqb k n.
Proof. intros x n k [->| ->] [->| ->]; unfold has_suffix; rewrite (rev_app_distr x); reflexivity. Qed.

Lemma suffix_key_eq : forall x n k, key_ok n -> key_ok k -> has_suffix (!" " ++ n ++ !"=") (x ++ !" " ++ k ++ !"=") = str_eqb k n.
Proof. intros x n k [->| ->] [->| ->]; unfold has_suffix; rewrite (rev_app_distr x); reflexivity. Qed.

Lemma key_no_eq : forall n, key_ok n -> ~ In "="%char (!" " ++ n).
Proof. intros n [->| ->]; cbn; intuition discriminate. Qed.
Lemma key_no_dq : forall n, key_ok n -> ~ In dq_char (!" " ++ n ++ !"=").
Proof. intros n [->| ->]; cbn; intuition discriminate. Qed.

Definition value_text (a : attribute) : str := if attr_quoted a then dq ++ attr_value a ++ dq else attr_value a.

Lemma attribute_text_eq : forall a, attribute_text a = (!" " ++ attr_name a) ++ "="%char :: value_text a.
Proof. intros. unfold attribute_text, value_text. rewrite <- app_assoc. auto. Qed.

Lemma value_text_no_eq : forall a, attribute_ok a -> ~ In "="%char (value_text a).
Proof.
  intros a (_ & _ & N & _). specialize (N "="%char ltac:(cbn; auto)). unfold value_text. destruct (attr_quoted a); auto.
  rewrite !in_app_iff. intros [I|[I|I]]; auto; cbn in I; intuition discriminate.
Qed.

Lemma value_no_dq : forall a, attribute_ok a -> ~ In dq_char (attr_value a).
Proof. intros a (_ & _ & N & _). apply (N dq_char). cbn. auto. Qed.

Lemma value_text_dq : forall a y, attribute_ok a -> has_prefix dq (value_text a ++ y) = attr_quoted a.
Proof.
  intros a y H. unfold value_text. destruct (attr_quoted a); [reflexivity|]. pose proof (value_no_dq a H) as N. destruct H as (_ & E & _).
  destruct (attr_value a) as [|c v]; [contradiction|]. cbn [app]. change dq with [dq_char]. rewrite has_prefix_single. apply Ascii.eqb_neq. intros <-. apply N. left. auto.
Qed.

Section Tail.
Variable tail : str.
Hypothesis tail_eq : ~ In "="%char tail.
Definition attrs (l : list attribute) : str := concat (map attribute_text l) ++ tail.

Lemma attrs_cons : forall a l, attrs (a :: l) = (!" " ++ attr_name a) ++ "="%char :: value_text a ++ attrs l.
Proof. intros. unfold attrs. cbn [map concat]. rewrite attribute_text_eq, <- !app_assoc. auto. Qed.

Lemma contains_quoted : forall n, key_ok n -> forall l, Forall attribute_ok l -> forall x, ~ In "="%char x ->
  contains ((!" " ++ n) ++ "="%char :: dq) (x ++ attrs l) = existsb (fun a => str_eqb (attr_name a) n && attr_quoted a) l.
Proof.
  intros n K l F. induction F as [|a l A F IH]; intros x Nx.
  - apply contains_no_sep. unfold attrs. cbn. rewrite in_app_iff. tauto.
  - rewrite attrs_cons, app_assoc, contains_sep, suffix_key, value_text_dq, IH; auto.
    + apply value_text_no_eq; auto.
    + apply A.
    + apply key_no_eq; auto.
    + cbn. intuition discriminate.
    + rewrite in_app_iff. intros [I|I]; auto. revert I. apply key_no_eq, A.
Qed.

Lemma contains_attr : forall n, key_ok n -> forall l, Forall attribute_ok l -> forall x, ~ In "="%char x ->
  contains ((!" " ++ n) ++ ["="%char]) (x ++ attrs l) = existsb (fun a => str_eqb (attr_name a) n) l.
Proof.
  intros n K l F. induction F as [|a l A F IH]; intros x Nx.
  - apply contains_no_sep. unfold attrs. cbn. rewrite in_app_iff. tauto.
  - rewrite attrs_cons, app_assoc, contains_sep, suffix_key, IH, andb_true_r; auto.
    + apply value_text_no_eq; auto.
    + apply A.
    + apply key_no_eq; auto.
    + rewrite in_app_iff. intros [I|I]; auto. revert I. apply key_no_eq, A.
Qed.

Lemma quoted_attr : forall n, key_ok n -> forall l, Forall attribute_ok l -> forall a, find (fun a => str_eqb (attr_name a) n) l = Some a -> attr_quoted a = true ->
  forall x, ~ In dq_char x -> quoted_value n (split dq (x ++ attrs l)) = Ok (attr_value a).
Proof.
  intros n K l F. induction F as [|a l A F IH]; intros b Fb Qb x Nx; [discriminate|]. cbn [find] in Fb. rewrite attrs_cons.
  pose proof (value_no_dq a A) as Nv. assert (Ka : key_ok (attr_name a)) by apply A. unfold value_text. destruct (attr_quoted a) eqn:Qa.
  - replace (x ++ (!" " ++ attr_name a) ++ "="%char :: (dq ++ attr_value a ++ dq) ++ attrs l)
      with ((x ++ !" " ++ attr_name a ++ !"=") ++ dq_char :: attr_value a ++ dq_char :: attrs l).
    2:{ rewrite <- !app_assoc. cbn [app]. rewrite <- ?app_assoc. reflexivity. }
    change dq with [dq_char]. rewrite !split_single_app; auto.
    2:{ rewrite in_app_iff. intros [I|I]; auto. revert I. apply key_no_dq; auto. }
    cbn [quoted_value]. rewrite suffix_key_eq by auto. destruct (str_eqb (attr_name a) n) eqn:En; [congruence|].
    assert (S : has_suffix (!" " ++ n ++ !"=") (attr_value a) = false).
    { apply not_true_iff_false. intros S. apply has_suffix_spec in S as (y & S). destruct A as (_ & _ & N & _). apply (N "="%char); [cbn; auto|].
      rewrite S, !in_app_iff. right. right. right. left. auto. }
    cbn [quoted_value]. rewrite S. apply (IH b Fb Qb []). auto.
  - destruct (str_eqb (attr_name a) n) eqn:En; [congruence|].
    replace (x ++ (!" " ++ attr_name a) ++ "="%char :: attr_value a ++ attrs l) with ((x ++ (!" " ++ attr_name a ++ !"=") ++ attr_value a) ++ attrs l)
      by (rewrite <- !app_assoc; cbn [app]; rewrite <- ?app_assoc; reflexivity).
    apply IH; auto. rewrite !in_app_iff. pose proof (key_no_dq _ Ka) as Nk. rewrite !in_app_iff in Nk. tauto.
Qed.

Definition stops (s : str) : Prop := s = [] \/ exists c s', s = c :: s' /\ (c = " "%char \/ c = "/"%char).

Lemma unquoted_stop : forall v y, ~ In " "%char v -> ~ In "/"%char v -> ~ In ">"%char v -> stops y -> unquoted_value (v ++ y) = v.
Proof.
  induction v as [|c v IH]; intros y N1 N2 N3 S.
  - cbn [app]. destruct S as [->|(c & s & -> & [->| ->])]; reflexivity.
  - cbn [app unquoted_value]. assert (c <> "/"%char /\ c <> " "%char /\ c <> ">"%char) as (H1 & H2 & H3) by (repeat split; intros ->; [apply N2|apply N1|apply N3]; left; auto).
    apply Ascii.eqb_neq in H1, H2, H3. rewrite H1, H2, H3. cbn [orb]. rewrite IH; auto; intros I; [apply N1|apply N2|apply N3]; right; auto.
Qed.

Hypothesis tail_stops : stops tail.
Lemma attrs_stops : forall l, stops (attrs l).
Proof. intros [|a l]; [exact tail_stops|]. right. exists " "%char. eexists. split; [reflexivity|auto]. Qed.

Lemma index_sep : forall c p, ~ In c p -> forall x y, ~ In c x ->
  index (p ++ [c]) (x ++ c :: y) = if has_suffix p x then Some (length x - length p) else option_map (fun i => S (length x) + i) (index (p ++ [c]) y).
Proof.
  intros c p Np x y. induction x as [|d x IH]; intros Nx.
  - destruct p as [|e p]; cbn [app index].
    + rewrite has_prefix_single, Ascii.eqb_refl. reflexivity.
    + rewrite has_prefix_neq by (intros ->; apply Np; left; auto). replace (has_suffix (e :: p) []) with false; [reflexivity|].
      symmetry. apply not_true_iff_false. intros H. apply has_suffix_spec in H as (t & H). apply app_cons_not_nil in H. auto.
  - cbn [app index]. destruct (has_prefix (p ++ [c]) (d :: x ++ c :: y)) eqn:E.
    + apply has_prefix_spec in E as (z & E). rewrite <- app_assoc in E. change (d :: x ++ c :: y) with ((d :: x) ++ c :: y) in E. apply app_eq_sep in E as [E _]; auto.
      rewrite E. replace (has_suffix p p) with true by (symmetry; apply has_suffix_spec; exists []; auto). rewrite Nat.sub_diag. reflexivity.
    + rewrite IH by (intros I; apply Nx; right; auto). assert (S : has_suffix p (d :: x) = has_suffix p x).
      { apply eq_true_iff_eq. rewrite !has_suffix_spec. split.
        - intros ([|f t] & H).
          + exfalso. cbn in H. rewrite <- H in E. cbn [app] in E. rewrite has_prefix_false in E. apply (E y). cbn. rewrite <- app_assoc. reflexivity.
          + injection H as _ ->. eauto.
        - intros (t & ->). exists (d :: t). auto. }
      rewrite S. destruct (has_suffix p x) eqn:Sx.
      * apply has_suffix_spec in Sx as (t & ->). cbn [option_map length]. rewrite app_length. f_equal. lia.
      * destruct (index (p ++ [c]) y); cbn [option_map length]; auto.
Qed.

Lemma unquoted_attr : forall n, key_ok n -> forall l, Forall attribute_ok l -> forall a, find (fun a => str_eqb (attr_name a) n) l = Some a -> attr_quoted a = false ->
  forall x, ~ In "="%char x -> exists i y, index ((!" " ++ n) ++ ["="%char]) (x ++ attrs l) = Some i /\ stops y /\
    skipn (i + length ((!" " ++ n) ++ ["="%char])) (x ++ attrs l) = attr_value a ++ y.
Proof.
  intros n K l F. induction F as [|a l A F IH]; intros b Fb Qb x Nx; [discriminate|]. cbn [find] in Fb. rewrite attrs_cons.
  assert (Ka : key_ok (attr_name a)) by apply A. rewrite app_assoc, index_sep, suffix_key; auto using key_no_eq.
  2:{ rewrite in_app_iff. intros [I|I]; auto. revert I. apply key_no_eq. auto. }
  destruct (str_eqb (attr_name a) n) eqn:En.
  - injection Fb as ->. apply str_eqb_eq in En. eexists. exists (attrs l). split; [reflexivity|]. split; [apply attrs_stops|]. unfold value_text. rewrite Qb, En.
    replace ((x ++ !" " ++ n) ++ "="%char :: attr_value b ++ attrs l) with (((x ++ !" " ++ n) ++ ["="%char]) ++ attr_value b ++ attrs l) by (rewrite <- app_assoc; auto).
    match goal with |- skipn ?k _ = _ => replace k with (length ((x ++ !" " ++ n) ++ ["="%char])) end.
    + rewrite skipn_app, skipn_all, Nat.sub_diag. reflexivity.
    + rewrite !app_length. cbn [length]. lia.
  - destruct (IH b Fb Qb (value_text a) (value_text_no_eq a A)) as (i & y & I & S & E). rewrite I. cbn [option_map].
    eexists. exists y. split; [reflexivity|]. split; auto. rewrite <- E.
    replace ((x ++ !" " ++ attr_name a) ++ "="%char :: value_text a ++ attrs l) with (((x ++ !" " ++ attr_name a) ++ ["="%char]) ++ value_text a ++ attrs l) by (rewrite <- app_assoc; auto).
    rewrite skipn_app, skipn_all2; cycle 1. { rewrite (app_length _ ["="%char]). cbn [length]. lia. } cbn [app]. f_equal. rewrite (app_length _ ["="%char]). cbn [length]. lia.
Qed.

Lemma find_existsb : forall A f (l : list A), existsb f l = match find f l with Some _ => true | None => false end.
Proof. intros A f l. induction l as [|a l IH]; auto. cbn. destruct (f a); auto. Qed.

Lemma getAttribute_attrs : forall n l x, key_ok n -> Forall attribute_ok l -> NoDup (map attr_name l) -> ~ In "="%char x -> ~ In dq_char x ->
  getAttribute (x ++ attrs l) n = Ok (match find (fun a => str_eqb (attr_name a) n) l with Some a => attr_value a | None => [] end).
Proof.
  intros n l x K F D Nx Nd. unfold getAttribute. change (!" " ++ n ++ !"=" ++ dq) with ((!" " ++ n) ++ "="%char :: dq).
  change (!" " ++ n ++ !"=") with ((!" " ++ n) ++ ["="%char]). rewrite contains_quoted, contains_attr; auto.
  rewrite (find_existsb _ (fun a => str_eqb (attr_name a) n)). destruct (find _ l) as [a|] eqn:Fa.
  - assert (E : existsb (fun a => str_eqb (attr_name a) n && attr_quoted a) l = attr_quoted a).
    { clear F. induction l as [|b l IH]; [discriminate|]. cbn [find existsb map] in *. inversion D as [|? ? D1 D2]; subst. destruct (str_eqb (attr_name b) n) eqn:En.
      - injection Fa as ->. cbn [andb]. destruct (attr_quoted a); auto. cbn [orb]. apply not_true_iff_false. intros H. apply existsb_exists in H as (z & I & H).
        apply andb_true_iff in H as [H _]. apply str_eqb_eq in H, En. apply D1. rewrite En, <- H. apply in_map. auto.
      - cbn [andb orb]. auto. }
    rewrite E. destruct (attr_quoted a) eqn:Q.
    + eapply quoted_attr; eauto.
    + destruct (unquoted_attr n K l F a Fa Q x Nx) as (i & y & I & S & Y). unfold split2. rewrite I, Y. f_equal.
      rewrite Forall_forall in F. apply find_some in Fa as [Fa _]. apply F in Fa as (_ & _ & C & U & _). destruct (U Q) as [U1 U2]. apply unquoted_stop; auto.
      apply C. cbn. auto.
  - replace (existsb _ l) with false; auto. symmetry. apply not_true_iff_false. intros H. apply existsb_exists in H as (z & I & H).
    apply andb_true_iff in H as [H _]. eapply find_none in Fa; eauto. cbn in Fa. congruence.
Qed.
End Tail.

Lemma attributes_attrs : forall a post, attributes_text a ++ post = attrs (repeat " "%char (spaces a) ++ post) (given a).
Proof. intros. unfold attributes_text, attrs. rewrite <- app_assoc. auto. Qed.

Definition post_ok (post : str) : Prop := post = [] \/ post = !"/".

Lemma getAttribute_value : forall a x post n, attributes_ok a -> post_ok post -> key_ok n -> ~ In "="%char x -> ~ In dq_char x ->
  getAttribute (x ++ attributes_text a ++ post) n = Ok (match value_of n a with Some v => v | None => [] end).
Proof.
  intros a x post n [F D] P K N1 N2. rewrite attributes_attrs, getAttribute_attrs; auto.
  - unfold value_of. destruct (find _ _); auto.
  - intros I; apply in_app_or in I as [I|I]; [apply repeat_spec in I; discriminate|]. destruct P as [->| ->]; cbn in I; intuition discriminate.
  - destruct (spaces a) as [|k]; [|right; exists " "%char; eexists; split; [reflexivity|auto]]. destruct P as [->| ->]; [left; auto|]. right. exists "/"%char, []. auto.
Qed.
