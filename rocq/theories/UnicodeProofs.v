(** * Proofs about the decoding of characters *)

From Coq Require Import Ascii String.
From Coq Require Import List Arith NArith ZArith Bool Lia.
From Verif Require Import GoStr StatsModel StatsSpec.
Import ListNotations.
Local Open Scope list_scope.

Ltac Zify.zify_post_hook ::= Z.to_euclidean_division_equations.

Lemma low : forall x : N, (x < 64)%N -> ((128 + x) mod 64 = x)%N.
Proof. intros x H. lia. Qed.

Lemma runes_utf8 : forall c s, scalar c -> runes (utf8 c ++ s) = c :: runes s.
Proof.
  intros c s H. unfold scalar in H. unfold utf8. destruct (c <? 128)%N eqn:E1; [|destruct (c <? 2048)%N eqn:E2; [|destruct (c <? 65536)%N eqn:E3]];
    rewrite ?N.ltb_lt, ?N.ltb_ge in *; cbn [map app].
  - cbn [runes]. rewrite N_ascii_embedding by lia. apply N.ltb_lt in E1. rewrite E1. reflexivity.
  - assert (A : (2 <= c / 64 < 32)%N) by lia. set (a := (c / 64)%N) in *. set (b := (c mod 64)%N). assert (B : (b < 64)%N) by (unfold b; lia).
    assert (C : (c = a * 64 + b)%N) by (unfold a, b; lia). clearbody a b.
    cbn [runes]. unfold within, low_bits. rewrite !N_ascii_embedding by lia.
    replace (192 + a <? 128)%N with false by (symmetry; apply N.ltb_ge; lia).
    replace (194 <=? 192 + a)%N with true by (symmetry; apply N.leb_le; lia).
    replace (192 + a <=? 223)%N with true by (symmetry; apply N.leb_le; lia). cbn [andb].
    unfold second_byte. repeat match goal with |- context[(192 + a =? ?x)%N] => replace (192 + a =? x)%N with false by (symmetry; apply N.eqb_neq; lia) end. cbn [fst snd].
    replace (128 <=? 128 + b)%N with true by (symmetry; apply N.leb_le; lia).
    replace (128 + b <=? 191)%N with true by (symmetry; apply N.leb_le; lia). cbn [andb]. f_equal.
    rewrite low by lia. replace ((192 + a) mod 32)%N with a by lia. lia.
  - set (a := (c / 4096)%N). set (b := (c / 64 mod 64)%N). set (d := (c mod 64)%N). assert (B : (b < 64)%N) by (unfold b; lia). assert (D : (d < 64)%N) by (unfold d; lia).
    assert (C : (c = a * 4096 + b * 64 + d)%N) by (unfold a, b, d; lia). assert (A : (a < 16)%N) by lia. clearbody a b d.
    cbn [runes]. unfold next_byte, within, low_bits. cbn [fst snd]. rewrite !N_ascii_embedding by lia.
    replace (224 + a <? 128)%N with false by (symmetry; apply N.ltb_ge; lia).
    replace (224 + a <=? 223)%N with false by (symmetry; apply N.leb_gt; lia). rewrite andb_false_r.
    replace (224 <=? 224 + a)%N with true by (symmetry; apply N.leb_le; lia).
    replace (224 + a <=? 239)%N with true by (symmetry; apply N.leb_le; lia). cbn [andb].
    replace (128 <=? 128 + d)%N with true by (symmetry; apply N.leb_le; lia).
    replace (128 + d <=? 191)%N with true by (symmetry; apply N.leb_le; lia). rewrite andb_true_r.
    assert (X : ((fst (second_byte (224 + a)) <=? 128 + b)%N && (128 + b <=? snd (second_byte (224 + a)))%N = true)).
    { unfold second_byte. destruct (224 + a =? 224)%N eqn:X1; [|destruct (224 + a =? 237)%N eqn:X2; [|destruct (224 + a =? 240)%N eqn:X3; [|destruct (224 + a =? 244)%N eqn:X4]]];
        rewrite ?N.eqb_eq, ?N.eqb_neq in *; cbn [fst snd]; rewrite andb_true_iff, !N.leb_le; lia. }
    rewrite X. f_equal. rewrite !low by lia. replace ((224 + a) mod 16)%N with a by lia. lia.
  - set (a := (c / 262144)%N). set (b := (c / 4096 mod 64)%N). set (d := (c / 64 mod 64)%N). set (e := (c mod 64)%N).
    assert (B : (b < 64)%N) by (unfold b; lia). assert (D : (d < 64)%N) by (unfold d; lia). assert (E : (e < 64)%N) by (unfold e; lia).
    assert (C : (c = a * 262144 + b * 4096 + d * 64 + e)%N) by (unfold a, b, d, e; lia). assert (A : (a < 5)%N) by lia. clearbody a b d e.
    cbn [runes]. unfold next_byte, within, low_bits. cbn [fst snd]. rewrite !N_ascii_embedding by lia.
    replace (240 + a <? 128)%N with false by (symmetry; apply N.ltb_ge; lia).
    replace (240 + a <=? 223)%N with false by (symmetry; apply N.leb_gt; lia). rewrite andb_false_r.
    replace (240 + a <=? 239)%N with false by (symmetry; apply N.leb_gt; lia). rewrite andb_false_r.
    replace (240 <=? 240 + a)%N with true by (symmetry; apply N.leb_le; lia).
    replace (240 + a <=? 244)%N with true by (symmetry; apply N.leb_le; lia). cbn [andb].
    replace (128 <=? 128 + d)%N with true by (symmetry; apply N.leb_le; lia).
    replace (128 + d <=? 191)%N with true by (symmetry; apply N.leb_le; lia).
    replace (128 <=? 128 + e)%N with true by (symmetry; apply N.leb_le; lia).
    replace (128 + e <=? 191)%N with true by (symmetry; apply N.leb_le; lia). rewrite !andb_true_r.
    assert (X : ((fst (second_byte (240 + a)) <=? 128 + b)%N && (128 + b <=? snd (second_byte (240 + a)))%N = true)).
    { unfold second_byte. destruct (240 + a =? 224)%N eqn:X1; [|destruct (240 + a =? 237)%N eqn:X2; [|destruct (240 + a =? 240)%N eqn:X3; [|destruct (240 + a =? 244)%N eqn:X4]]];
        rewrite ?N.eqb_eq, ?N.eqb_neq in *; cbn [fst snd]; rewrite andb_true_iff, !N.leb_le; lia. }
    rewrite X. f_equal. rewrite !low by lia. replace ((240 + a) mod 8)%N with a by lia. lia.
Qed.

Lemma runes_text : forall cs, Forall scalar cs -> runes (concat (map utf8 cs)) = cs.
Proof. intros cs H. induction H as [|c cs S H IH]; auto. cbn [map concat]. rewrite runes_utf8 by auto. rewrite IH. auto. Qed.
