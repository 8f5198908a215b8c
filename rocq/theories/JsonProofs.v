(** * Proofs about JSON texts *)

From Coq Require Import Ascii String.
From Coq Require Import List Arith NArith ZArith Bool Lia.
From Verif Require Import GoStr GoStrFacts StatsModel StatsSpec UnicodeProofs JsonSpec StatsJsonModel.
Import ListNotations.
Local Open Scope list_scope.

(** ** The encoder *)

Lemma characters_utf8 : forall c s, scalar c -> characters (utf8 c ++ s) = (Some c, utf8 c) :: characters s.
Proof.
  intros c s H. unfold scalar in H. unfold utf8. destruct (c <? 128)%N eqn:E1; [|destruct (c <? 2048)%N eqn:E2; [|destruct (c <? 65536)%N eqn:E3]];
    rewrite ?N.ltb_lt, ?N.ltb_ge in *; cbn [map app].
  - cbn [characters]. rewrite N_ascii_embedding by lia. apply N.ltb_lt in E1. rewrite E1. reflexivity.
  - assert (A : (2 <= c / 64 < 32)%N) by lia. set (a := (c / 64)%N) in *. set (b := (c mod 64)%N). assert (B : (b < 64)%N) by (unfold b; lia).
    assert (C : (c = a * 64 + b)%N) by (unfold a, b; lia). clearbody a b.
    cbn [characters]. unfold within, low_bits. rewrite !N_ascii_embedding by lia.
    replace (192 + a <? 128)%N with false by (symmetry; apply N.ltb_ge; lia).
    replace (194 <=? 192 + a)%N with true by (symmetry; apply N.leb_le; lia).
    replace (192 + a <=? 223)%N with true by (symmetry; apply N.leb_le; lia). cbn [andb].
    unfold second_byte. repeat match goal with |- context[(192 + a =? ?x)%N] => replace (192 + a =? x)%N with false by (symmetry; apply N.eqb_neq; lia) end. cbn [fst snd].
    replace (128 <=? 128 + b)%N with true by (symmetry; apply N.leb_le; lia).
    replace (128 + b <=? 191)%N with true by (symmetry; apply N.leb_le; lia). cbn [andb]. do 3 f_equal.
    rewrite low by lia. replace ((192 + a) mod 32)%N with a by lia. lia.
  - set (a := (c / 4096)%N). set (b := (c / 64 mod 64)%N). set (d := (c mod 64)%N). assert (B : (b < 64)%N) by (unfold b; lia). assert (D : (d < 64)%N) by (unfold d; lia).
    assert (C : (c = a * 4096 + b * 64 + d)%N) by (unfold a, b, d; lia). assert (A : (a < 16)%N) by lia. clearbody a b d.
    cbn [characters]. unfold next_byte, within, low_bits. cbn [fst snd]. rewrite !N_ascii_embedding by lia.
    replace (224 + a <? 128)%N with false by (symmetry; apply N.ltb_ge; lia).
    replace (224 + a <=? 223)%N with false by (symmetry; apply N.leb_gt; lia). rewrite andb_false_r.
    replace (224 <=? 224 + a)%N with true by (symmetry; apply N.leb_le; lia).
    replace (224 + a <=? 239)%N with true by (symmetry; apply N.leb_le; lia). cbn [andb].
    replace (128 <=? 128 + d)%N with true by (symmetry; apply N.leb_le; lia).
    replace (128 + d <=? 191)%N with true by (symmetry; apply N.leb_le; lia). rewrite andb_true_r.
    assert (X : ((fst (second_byte (224 + a)) <=? 128 + b)%N && (128 + b <=? snd (second_byte (224 + a)))%N = true)).
    { unfold second_byte. destruct (224 + a =? 224)%N eqn:X1; [|destruct (224 + a =? 237)%N eqn:X2; [|destruct (224 + a =? 240)%N eqn:X3; [|destruct (224 + a =? 244)%N eqn:X4]]];
        rewrite ?N.eqb_eq, ?N.eqb_neq in *; cbn [fst snd]; rewrite andb_true_iff, !N.leb_le; lia. }
    rewrite X. do 3 f_equal. rewrite !low by lia. replace ((224 + a) mod 16)%N with a by lia. lia.
  - set (a := (c / 262144)%N). set (b := (c / 4096 mod 64)%N). set (d := (c / 64 mod 64)%N). set (e := (c mod 64)%N).
    assert (B : (b < 64)%N) by (unfold b; lia). assert (D : (d < 64)%N) by (unfold d; lia). assert (E : (e < 64)%N) by (unfold e; lia).
    assert (C : (c = a * 262144 + b * 4096 + d * 64 + e)%N) by (unfold a, b, d, e; lia). assert (A : (a < 5)%N) by lia. clearbody a b d e.
    cbn [characters]. unfold next_byte, within, low_bits. cbn [fst snd]. rewrite !N_ascii_embedding by lia.
    replace (240 + a <? 128)%N with false by (symmetry; apply N.ltb_ge; lia).
    replace (240 + a <=? 223)%N with false by (symmetry; apply N.leb_gt; lia). rewrite andb_false_r.
    replace (240 + a <=? 239)%N with false by (symmetry; apply N.leb_gt; lia). rewrite andb_false_r.
    replace (240 <=? 240 + a)%N with true by (symmetry; apply N.leb_le; lia).
    replace (240 + a <=? 244)%N with true by (symmetry; apply N.leb_le; lia). cbn [andb].
    replace (128 <=? 128 + d)%N with true by (symmetry; apply N.leb_le; lia).
    replace (128 + d <=? 191)%N with true by (symmetry; apply N.leb_le; lia).
    replace (128 <=? 128 + e)%N with true by (symmetry; apply N.leb_le; lia).
    replace (128 + e <=? 191)%N with true by (symmetry; apply N.leb_le; lia). rewrite !andb_true_r.
    assert (X : ((fst (second_byte (240 + a)) <=? 128 + b)%N && (128 + b <=? snd (second_byte (240 + a)))%N = true)).
    { unfold second_byte. destruct (240 + a =? 224)%N eqn:X1; [|destruct (240 + a =? 237)%N eqn:X2; [|destruct (240 + a =? 240)%N eqn:X3; [|destruct (240 + a =? 244)%N eqn:X4]]];
        rewrite ?N.eqb_eq, ?N.eqb_neq in *; cbn [fst snd]; rewrite andb_true_iff, !N.leb_le; lia. }
    rewrite X. do 3 f_equal. rewrite !low by lia. replace ((240 + a) mod 8)%N with a by lia. lia.
Qed.

Lemma hex_digit_is : forall n, (n < 16)%N -> hex (hex_digit n) n.
Proof.
  intros n H. unfold hex, hex_digit. destruct (n <? 10)%N eqn:E; rewrite ?N.ltb_lt, ?N.ltb_ge in E; rewrite N_ascii_embedding by lia; lia.
Qed.

Lemma escape_reads : forall c s cs r, scalar c -> reads_string s cs r -> reads_string (escape (Some c, utf8 c) ++ s) (c :: cs) r.
Proof.
  intros c s cs r S H. unfold escape. cbn [fst snd].
  destruct (c =? 34)%N eqn:E1; [apply N.eqb_eq in E1; subst; apply (string_escape (ascii_of_N 34) 34%N); cbn; auto|].
  destruct (c =? 92)%N eqn:E2; [apply N.eqb_eq in E2; subst; apply (string_escape "\"%char 92%N); cbn; auto|]. cbn [orb].
  destruct (c =? 8)%N eqn:E3; [apply N.eqb_eq in E3; subst; apply (string_escape "b"%char 8%N); cbn; auto 10|].
  destruct (c =? 12)%N eqn:E4; [apply N.eqb_eq in E4; subst; apply (string_escape "f"%char 12%N); cbn; auto 10|].
  destruct (c =? 10)%N eqn:E5; [apply N.eqb_eq in E5; subst; apply (string_escape "n"%char 10%N); cbn; auto 10|].
  destruct (c =? 13)%N eqn:E6; [apply N.eqb_eq in E6; subst; apply (string_escape "r"%char 13%N); cbn; auto 10|].
  destruct (c =? 9)%N eqn:E7; [apply N.eqb_eq in E7; subst; apply (string_escape "t"%char 9%N); cbn; auto 10|].
  rewrite N.eqb_neq in E1, E2.
  destruct ((c <? 32)%N || (c =? 60)%N || (c =? 62)%N || (c =? 38)%N) eqn:E8.
  - assert (L : (c < 64)%N) by (rewrite !orb_true_iff, N.ltb_lt, !N.eqb_eq in E8; lia).
    apply (string_hex [hex_digit 0; hex_digit 0; hex_digit (c / 16); hex_digit (c mod 16)]); auto. exists (hex_digit 0), (hex_digit 0), (hex_digit (c / 16)), (hex_digit (c mod 16)), 0%N, 0%N, (c / 16)%N, (c mod 16)%N.
    split; [reflexivity|]. do 4 (split; [apply hex_digit_is; lia|]). lia.
  - destruct ((c =? 8232)%N || (c =? 8233)%N) eqn:E9.
    + rewrite orb_true_iff, !N.eqb_eq in E9. apply (string_hex [hex_digit 2; hex_digit 0; hex_digit 2; hex_digit (c mod 16)]); auto. exists (hex_digit 2), (hex_digit 0), (hex_digit 2), (hex_digit (c mod 16)), 2%N, 0%N, 2%N, (c mod 16)%N.
      split; [reflexivity|]. do 4 (split; [apply hex_digit_is; lia|]). destruct E9; subst c; reflexivity.
    + rewrite !orb_false_iff, N.ltb_ge in E8. apply string_plain; auto. lia.
Qed.

Lemma string_reads : forall cs r, Forall scalar cs -> reads_string (concat (map escape (characters (encoded cs))) ++ quote :: r) cs r.
Proof.
  intros cs r F. induction F as [|c cs S F IH]; [constructor|]. unfold encoded. cbn [map concat]. fold (encoded cs). rewrite characters_utf8 by auto. cbn [map concat]. rewrite <- app_assoc. apply escape_reads; auto.
Qed.

(** ** Numbers *)

Lemma itoa_whole : forall n, whole (itoa n).
Proof.
  intros n. split; [|split].
  - eapply Forall_impl; [|apply itoa_digits]. intros c H. unfold is_digit in H. apply andb_true_iff in H as [H1 H2]. rewrite N.leb_le in *. unfold digit. lia.
  - apply itoa_nonempty.
  - intros c s' E. unfold itoa in E. assert (Z : Nat.to_uint n = Decimal.unorm (Nat.to_uint n)) by (rewrite <- DecimalNat.Unsigned.to_of, DecimalNat.Unsigned.of_to; reflexivity).
    rewrite Z in E. unfold Decimal.unorm in E. pose proof (DecimalFacts.nzhead_nonzero (Nat.to_uint n)) as Nz. destruct (Decimal.nzhead (Nat.to_uint n)) eqn:D; cbn in E; try discriminate E. apply (Nz u). reflexivity.
Qed.

Lemma itoa_number : forall n, number_text (itoa n).
Proof.
  intros n. exists [], (itoa n), [], []. rewrite app_nil_r. split; [reflexivity|]. split; [left; reflexivity|]. split; [apply itoa_whole|]. split; left; reflexivity.
Qed.

(** ** White space *)

Lemma blanks_none : forall s, no_blank s -> blanks s s.
Proof. intros s N. exists []. split; [reflexivity|]. split; [constructor|exact N]. Qed.

Lemma blanks_some : forall w s, Forall blank w -> no_blank s -> blanks (w ++ s) s.
Proof. intros w s F N. exists w. auto. Qed.

Lemma indentation_blank : forall n, Forall blank (indentation n).
Proof. intros n. unfold indentation. induction n as [|n IH]; [constructor|]. cbn [repeat concat app]. constructor; [cbn; auto|]. constructor; [cbn; auto|]. exact IH. Qed.

Lemma nl_blank : Forall blank nl.
Proof. constructor; [cbn; auto|constructor]. Qed.
