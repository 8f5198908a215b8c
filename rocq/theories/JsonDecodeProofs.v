(** * Proofs: what the encoder makes of any text *)

From Coq Require Import Ascii String.
From Coq Require Import List Arith NArith ZArith Bool Lia.
From Verif Require Import GoStr GoStrFacts StatsModel StatsSpec UnicodeProofs JsonSpec StatsJsonModel JsonProofs.
Import ListNotations.
Local Open Scope list_scope.

Definition piece_ok (c : option N * str) : Prop := match fst c with Some n => scalar n /\ snd c = utf8 n | None => True end.
Definition piece_rune (c : option N * str) : N := match fst c with Some n => n | None => RuneError end.

Lemma second_range : forall b0 c1, within (second_byte b0) c1 = true ->
  (128 <= N_of_ascii c1 <= 191 /\ (b0 = 224 -> 160 <= N_of_ascii c1) /\ (b0 = 237 -> N_of_ascii c1 <= 159) /\ (b0 = 240 -> 144 <= N_of_ascii c1) /\ (b0 = 244 -> N_of_ascii c1 <= 143))%N.
Proof.
  intros b0 c1 H. unfold within in H. apply andb_true_iff in H as [H1 H2]. rewrite N.leb_le in *. unfold second_byte in *.
  destruct (b0 =? 224)%N eqn:X1; [|destruct (b0 =? 237)%N eqn:X2; [|destruct (b0 =? 240)%N eqn:X3; [|destruct (b0 =? 244)%N eqn:X4]]]; rewrite ?N.eqb_eq, ?N.eqb_neq in *; cbn [fst snd] in *; lia.
Qed.

Lemma next_range : forall c, next_byte c = true -> (128 <= N_of_ascii c <= 191)%N.
Proof. intros c H. unfold next_byte, within in H. cbn [fst snd] in H. apply andb_true_iff in H as [H1 H2]. rewrite N.leb_le in *. lia. Qed.

Lemma ascii_back : forall c n, N_of_ascii c = n -> ascii_of_N n = c.
Proof. intros c n <-. apply ascii_N_embedding. Qed.

Lemma two_ok : forall c0 c1, (194 <= N_of_ascii c0 <= 223)%N -> (128 <= N_of_ascii c1 <= 191)%N -> piece_ok (Some (N_of_ascii c0 mod 32 * 64 + low_bits c1)%N, [c0; c1]).
Proof.
  intros c0 c1 A B. unfold piece_ok, low_bits. cbn [fst snd]. remember (N_of_ascii c0) as a. remember (N_of_ascii c1) as b. symmetry in Heqa, Heqb. remember (a mod 32 * 64 + b mod 64)%N as c.
  assert (L : (128 <= c < 2048)%N) by lia. split; [unfold scalar; lia|]. unfold utf8.
  replace (c <? 128)%N with false by (symmetry; apply N.ltb_ge; lia). replace (c <? 2048)%N with true by (symmetry; apply N.ltb_lt; lia). cbn [map].
  rewrite (ascii_back c0), (ascii_back c1); auto; lia.
Qed.

Lemma three_ok : forall c0 c1 c2, (224 <= N_of_ascii c0 <= 239)%N -> within (second_byte (N_of_ascii c0)) c1 = true -> (128 <= N_of_ascii c2 <= 191)%N ->
  piece_ok (Some (N_of_ascii c0 mod 16 * 4096 + low_bits c1 * 64 + low_bits c2)%N, [c0; c1; c2]).
Proof.
  intros c0 c1 c2 A W B. apply second_range in W. unfold piece_ok, low_bits. cbn [fst snd]. remember (N_of_ascii c0) as a. remember (N_of_ascii c1) as b. remember (N_of_ascii c2) as d. symmetry in Heqa, Heqb, Heqd.
  assert (A1 : exists x, a = (224 + x)%N /\ (x < 16)%N) by (exists (a - 224)%N; lia). destruct A1 as (x & -> & X). assert (B1 : exists y, b = (128 + y)%N /\ (y < 64)%N) by (exists (b - 128)%N; lia). destruct B1 as (y & -> & Y).
  assert (D1 : exists z, d = (128 + z)%N /\ (z < 64)%N) by (exists (d - 128)%N; lia). destruct D1 as (z & -> & Z).
  rewrite !low by lia. replace ((224 + x) mod 16)%N with x by lia. remember (x * 4096 + y * 64 + z)%N as c.
  assert (L : (2048 <= c < 65536)%N) by lia. split; [unfold scalar; lia|]. unfold utf8.
  replace (c <? 128)%N with false by (symmetry; apply N.ltb_ge; lia). replace (c <? 2048)%N with false by (symmetry; apply N.ltb_ge; lia). replace (c <? 65536)%N with true by (symmetry; apply N.ltb_lt; lia). cbn [map].
  rewrite (ascii_back c0), (ascii_back c1), (ascii_back c2); auto; lia.
Qed.

Lemma four_ok : forall c0 c1 c2 c3, (240 <= N_of_ascii c0 <= 244)%N -> within (second_byte (N_of_ascii c0)) c1 = true -> (128 <= N_of_ascii c2 <= 191)%N -> (128 <= N_of_ascii c3 <= 191)%N ->
  piece_ok (Some (N_of_ascii c0 mod 8 * 262144 + low_bits c1 * 4096 + low_bits c2 * 64 + low_bits c3)%N, [c0; c1; c2; c3]).
Proof.
  intros c0 c1 c2 c3 A W B C. apply second_range in W. unfold piece_ok, low_bits. cbn [fst snd]. remember (N_of_ascii c0) as a. remember (N_of_ascii c1) as b. remember (N_of_ascii c2) as d. remember (N_of_ascii c3) as e. symmetry in Heqa, Heqb, Heqd, Heqe.
  assert (A1 : exists x, a = (240 + x)%N /\ (x < 5)%N) by (exists (a - 240)%N; lia). destruct A1 as (x & -> & X). assert (B1 : exists y, b = (128 + y)%N /\ (y < 64)%N) by (exists (b - 128)%N; lia). destruct B1 as (y & -> & Y).
  assert (D1 : exists z, d = (128 + z)%N /\ (z < 64)%N) by (exists (d - 128)%N; lia). destruct D1 as (z & -> & Z). assert (E1 : exists w, e = (128 + w)%N /\ (w < 64)%N) by (exists (e - 128)%N; lia). destruct E1 as (w & -> & V).
  rewrite !low by lia. replace ((240 + x) mod 8)%N with x by lia. remember (x * 262144 + y * 4096 + z * 64 + w)%N as c.
  assert (L : (65536 <= c < 1114112)%N) by lia. split; [unfold scalar; lia|]. unfold utf8.
  replace (c <? 128)%N with false by (symmetry; apply N.ltb_ge; lia). replace (c <? 2048)%N with false by (symmetry; apply N.ltb_ge; lia). replace (c <? 65536)%N with false by (symmetry; apply N.ltb_ge; lia). cbn [map].
  rewrite (ascii_back c0), (ascii_back c1), (ascii_back c2), (ascii_back c3); auto; lia.
Qed.

Lemma characters_sound : forall n s, length s <= n -> Forall piece_ok (characters s) /\ runes s = map piece_rune (characters s).
Proof.
  assert (C : forall p l rs, piece_ok p -> Forall piece_ok l /\ rs = map piece_rune l -> forall r, r = piece_rune p -> Forall piece_ok (p :: l) /\ r :: rs = map piece_rune (p :: l)).
  { intros p l rs P (F & ->) r ->. auto. }
  assert (No : forall t, piece_ok (None, t)) by (intros; exact I).
  induction n as [|n IH]; intros s L; [destruct s; [cbn; auto|cbn in L; lia]|]. destruct s as [|c0 s1]; [cbn; auto|]. cbn [characters runes]. cbn [length] in L.
  destruct (N_of_ascii c0 <? 128)%N eqn:E0.
  - apply C; [|apply IH; lia|reflexivity]. apply N.ltb_lt in E0. unfold piece_ok. cbn [fst snd]. split; [unfold scalar; lia|]. unfold utf8. replace (N_of_ascii c0 <? 128)%N with true by (symmetry; apply N.ltb_lt; lia). cbn [map]. rewrite ascii_N_embedding. reflexivity.
  - destruct ((194 <=? N_of_ascii c0)%N && (N_of_ascii c0 <=? 223)%N) eqn:E1; [|destruct ((224 <=? N_of_ascii c0)%N && (N_of_ascii c0 <=? 239)%N) eqn:E2; [|destruct ((240 <=? N_of_ascii c0)%N && (N_of_ascii c0 <=? 244)%N) eqn:E3]];
      rewrite ?andb_true_iff, ?N.leb_le in *.
    + destruct s1 as [|c1 s2]; [apply C; auto; apply IH; lia|]. destruct (within (second_byte (N_of_ascii c0)) c1) eqn:W; [|apply C; auto; apply IH; cbn [length] in *; lia].
      apply C; [|apply IH; cbn [length] in *; lia|reflexivity]. apply two_ok; [lia|]. apply second_range in W. lia.
    + destruct s1 as [|c1 [|c2 s3]]; [apply C; auto; apply IH; cbn [length] in *; lia|apply C; auto; apply IH; cbn [length] in *; lia|].
      destruct (within (second_byte (N_of_ascii c0)) c1 && next_byte c2) eqn:W; [|apply C; auto; apply IH; cbn [length] in *; lia]. apply andb_true_iff in W as [W1 W2].
      apply C; [|apply IH; cbn [length] in *; lia|reflexivity]. apply three_ok; auto. apply next_range. exact W2.
    + destruct s1 as [|c1 [|c2 [|c3 s4]]]; try (apply C; auto; apply IH; cbn [length] in *; lia).
      destruct (within (second_byte (N_of_ascii c0)) c1 && next_byte c2 && next_byte c3) eqn:W; [|apply C; auto; apply IH; cbn [length] in *; lia]. rewrite !andb_true_iff in W. destruct W as [[W1 W2] W3].
      apply C; [|apply IH; cbn [length] in *; lia|reflexivity]. apply four_ok; auto; apply next_range; auto.
    + apply C; auto. apply IH. lia.
Qed.

Lemma any_string_reads : forall s r, reads_string (concat (map escape (characters s)) ++ quote :: r) (runes s) r.
Proof.
  intros s r. destruct (characters_sound (length s) s (le_n _)) as [F ->]. induction F as [|[[c|] t] l P F IH]; [constructor| |]; cbn [map concat]; rewrite <- app_assoc.
  - destruct P as [P Q]. cbn [fst snd] in *. subst t. apply escape_reads; auto.
  - apply (string_hex [hex_digit 15; hex_digit 15; hex_digit 15; hex_digit 13]); [|unfold scalar, piece_rune; cbn [fst]; unfold RuneError; lia|exact IH].
    eexists _, _, _, _, 15%N, 15%N, 15%N, 13%N. split; [reflexivity|]. do 4 (split; [apply hex_digit_is; lia|]). reflexivity.
Qed.
