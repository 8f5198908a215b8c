(** * Proofs: a JSON text says only one thing *)

From Coq Require Import Ascii String.
From Coq Require Import List Arith NArith ZArith Bool Lia.
From Verif Require Import GoStr GoStrFacts StatsModel StatsSpec UnicodeProofs JsonSpec StatsJsonModel JsonProofs.
Import ListNotations.
Local Open Scope list_scope.

(** ** White space *)

Lemma blanks_one : forall s r r', blanks s r -> blanks s r' -> r = r'.
Proof.
  intros s r r' (w & -> & W & N) (w' & E & W' & N'). revert w' E W'. induction W as [|c w C W IH]; intros w' E W'.
  - destruct W' as [|c' w' C' W']; [exact E|]. cbn [app] in E. subst r. cbn in N. contradiction.
  - destruct W' as [|c' w' C' W']; cbn [app] in E; [subst r'; cbn in N'; contradiction|]. injection E as <- E. exact (IH w' E W').
Qed.

Lemma blanks_head : forall s c r c' r', blanks s (c :: r) -> blanks s (c' :: r') -> c = c' /\ r = r'.
Proof. intros s c r c' r' B B'. pose proof (blanks_one _ _ _ B B') as E. injection E as <- <-. auto. Qed.

(** ** Strings *)

Lemma utf8_cut : forall c c' s s', scalar c -> scalar c' -> utf8 c ++ s = utf8 c' ++ s' -> c = c' /\ s = s'.
Proof.
  intros c c' s s' C C' E. pose proof (characters_utf8 c s C) as H. rewrite E, (characters_utf8 c' s' C') in H. injection H as <- _ _. split; [reflexivity|]. exact (app_inv_head _ _ _ E).
Qed.

Lemma utf8_first : forall c, scalar c -> exists b s, utf8 c = b :: s /\ (N_of_ascii b = c \/ 128 <= N_of_ascii b)%N.
Proof.
  intros c H. unfold scalar in H. unfold utf8. destruct (c <? 128)%N eqn:E1; [|destruct (c <? 2048)%N eqn:E2; [|destruct (c <? 65536)%N eqn:E3]]; rewrite ?N.ltb_lt, ?N.ltb_ge in *; cbn [map]; eexists _, _; (split; [reflexivity|]);
    rewrite N_ascii_embedding by lia; lia.
Qed.

Lemma hex_one : forall a x y, hex a x -> hex a y -> x = y.
Proof. intros a x y H H'. unfold hex in *. cbn zeta in *. lia. Qed.

Lemma hex4_one : forall h h' c c' s s', hex4 h c -> hex4 h' c' -> h ++ s = h' ++ s' -> c = c' /\ s = s'.
Proof.
  intros h h' c c' s s' (a & b & d & e & x & y & z & w & -> & A & B & D & E & ->) (a' & b' & d' & e' & x' & y' & z' & w' & -> & A' & B' & D' & E' & ->) H. cbn [app] in H. injection H as <- <- <- <- <-.
  rewrite (hex_one _ _ _ A A'), (hex_one _ _ _ B B'), (hex_one _ _ _ D D'), (hex_one _ _ _ E E'). auto.
Qed.

Lemma escape_one : forall e c c', In (e, c) escapes -> In (e, c') escapes -> c = c'.
Proof. intros e c c' I I'. cbn in I, I'. repeat (destruct I as [I|I]; [injection I; intros <- <-; clear I; repeat (destruct I' as [I'|I']; [congruence|]); contradiction|]); contradiction. Qed.

Lemma escape_not_u : forall c, ~ In ("u"%char, c) escapes.
Proof. intros c I. cbn in I. repeat (destruct I as [I|I]; [discriminate I|]); contradiction. Qed.

Lemma plain_first : forall c s, scalar c -> (32 <= c)%N -> c <> 34%N -> c <> 92%N -> forall b t, utf8 c ++ s = b :: t -> b <> quote /\ b <> "\"%char.
Proof.
  intros c s C L Q B b t E. destruct (utf8_first c C) as (b' & s' & E' & D). rewrite E' in E. cbn [app] in E. injection E as <- _. split; intros ->; cbn in D; lia.
Qed.

Lemma reads_string_one : forall s cs r, reads_string s cs r -> forall cs' r', reads_string s cs' r' -> cs = cs' /\ r = r'.
Proof.
  intros s cs r H. induction H as [r|c s cs r C L Q B H IH|e c s cs r I H IH|h c s cs r X C H IH|h l high low s cs r X Y Hi Lo H IH]; intros cs' r' H'.
  - inversion H' as [r2 E|c' s' cs'' r2 C' L' Q' B' H2 E|e' c' s' cs'' r2 I' H2 E|h' c' s' cs'' r2 X' C' H2 E|h' l' high' low' s' cs'' r2 X' Y' Hi' Lo' H2 E]; subst; try discriminate; auto.
    destruct (plain_first c' s' C' L' Q' B' _ _ E). contradiction.
  - inversion H' as [r2 E|c' s' cs'' r2 C' L' Q' B' H2 E|e' c' s' cs'' r2 I' H2 E|h' c' s' cs'' r2 X' C' H2 E|h' l' high' low' s' cs'' r2 X' Y' Hi' Lo' H2 E]; subst;
      try (symmetry in E; destruct (plain_first c s C L Q B _ _ E); contradiction).
    destruct (utf8_cut _ _ _ _ C' C E) as [-> ->]. destruct (IH _ _ H2) as [-> ->]. auto.
  - inversion H' as [r2 E|c' s' cs'' r2 C' L' Q' B' H2 E|e' c' s' cs'' r2 I' H2 E|h' c' s' cs'' r2 X' C' H2 E|h' l' high' low' s' cs'' r2 X' Y' Hi' Lo' H2 E]; subst;
      try (destruct (plain_first c' s' C' L' Q' B' _ _ E); contradiction); try (exfalso; exact (escape_not_u _ I)).
    rewrite (escape_one _ _ _ I I'). destruct (IH _ _ H2) as [-> ->]. auto.
  - inversion H' as [r2 E|c' s' cs'' r2 C' L' Q' B' H2 E|e' c' s' cs'' r2 I' H2 E|h' c' s' cs'' r2 X' C' H2 E|h' l' high' low' s' cs'' r2 X' Y' Hi' Lo' H2 E]; subst;
      try (destruct (plain_first c' s' C' L' Q' B' _ _ E); contradiction); try (exfalso; exact (escape_not_u _ I')).
    + destruct (hex4_one _ _ _ _ _ _ X' X E) as [-> ->]. destruct (IH _ _ H2) as [-> ->]. auto.
    + destruct (hex4_one _ _ _ _ _ _ X' X E) as [-> _]. unfold scalar in C. lia.
  - inversion H' as [r2 E|c' s' cs'' r2 C' L' Q' B' H2 E|e' c' s' cs'' r2 I' H2 E|h' c' s' cs'' r2 X' C' H2 E|h' l' high' low' s' cs'' r2 X' Y' Hi' Lo' H2 E]; subst;
      try (destruct (plain_first c' s' C' L' Q' B' _ _ E); contradiction); try (exfalso; exact (escape_not_u _ I')).
    + destruct (hex4_one _ _ _ _ _ _ X' X E) as [-> _]. unfold scalar in C'. lia.
    + destruct (hex4_one _ _ _ _ _ _ X' X E) as [-> E2]. injection E2 as E2. destruct (hex4_one _ _ _ _ _ _ Y' Y E2) as [-> ->]. destruct (IH _ _ H2) as [-> ->]. auto.
Qed.

(** ** Numbers *)

Lemma digit_number : forall c, digit c -> in_number c.
Proof.
  intros c D. unfold digit in D. assert (X : c = ascii_of_N (N_of_ascii c)) by (symmetry; apply ascii_N_embedding). remember (N_of_ascii c) as n. clear Heqn.
  assert (O : (n = 48 \/ n = 49 \/ n = 50 \/ n = 51 \/ n = 52 \/ n = 53 \/ n = 54 \/ n = 55 \/ n = 56 \/ n = 57)%N) by lia.
  repeat (destruct O as [O|O]; [subst; cbn; tauto|]). subst. cbn. tauto.
Qed.

Lemma number_chars : forall t, number_text t -> Forall in_number t.
Proof.
  intros t (sign & int & frac & exp & -> & Si & (D & _) & Fr & Ex). assert (A : forall d, Forall digit d -> Forall in_number d) by (intros d F; eapply Forall_impl; [|exact F]; apply digit_number).
  repeat (apply Forall_app; split).
  - destruct Si as [-> | ->]; [constructor|]. constructor; [cbn; tauto|constructor].
  - auto.
  - destruct Fr as [-> |(d & -> & F & _)]; [constructor|]. apply Forall_app. split; [constructor; [cbn; tauto|constructor]|auto].
  - destruct Ex as [-> |(e & sg & d & -> & I1 & I2 & F & _)]; [constructor|]. repeat (apply Forall_app; split); auto.
    + cbn in I1. destruct I1 as [<-|[<-|[]]]; (constructor; [cbn; tauto|constructor]).
    + cbn in I2. destruct I2 as [<-|[<-|[<-|[]]]]; [constructor|constructor; [cbn; tauto|constructor]|constructor; [cbn; tauto|constructor]].
Qed.

Lemma number_one : forall t r t' r', Forall in_number t -> Forall in_number t' -> ends_number r -> ends_number r' -> t ++ r = t' ++ r' -> t = t' /\ r = r'.
Proof.
  intros t r t' r' F. revert t'. induction F as [|c t C F IH]; intros t' F' E E' H.
  - destruct F' as [|c' t' C' F']; [auto|]. cbn [app] in H. subst r. cbn in E. contradiction.
  - destruct F' as [|c' t' C' F']; cbn [app] in H; [subst r'; cbn in E'; contradiction|]. injection H as <- H. destruct (IH t' F' E E' H) as [-> ->]. auto.
Qed.

Lemma number_first : forall t, number_text t -> exists c t', t = c :: t' /\ (c = "-"%char \/ digit c).
Proof.
  intros t (sign & int & frac & exp & -> & Si & (D & N & _) & _). destruct Si as [-> | ->]; [|eexists _, _; split; [reflexivity|auto]]. destruct int as [|c int]; [contradiction|]. inversion D; subst. eexists _, _. split; [reflexivity|auto].
Qed.

(** ** Values *)

Definition first_of (v : json) (c : ascii) : Prop :=
  match v with
  | JString _ => c = quote
  | JNumber _ => c = "-"%char \/ digit c
  | JTrue => c = "t"%char
  | JFalse => c = "f"%char
  | JNull => c = "n"%char
  | JObject _ => c = "{"%char
  | JArray _ => c = "["%char
  end.

Lemma first_seen : forall s v r, reads_value s v r -> exists c t, blanks s (c :: t) /\ first_of v c.
Proof.
  intros s v r H. destruct H as [s s1 cs r B _|s t r B N _|s word v r B I|s s1 r B _|s s1 ms r B _|s s1 r B _|s s1 vs r B _]; try (eexists _, _; split; [exact B|reflexivity]).
  - destruct (number_first t N) as (c & t' & -> & F). eexists _, _. split; [exact B|exact F].
  - cbn in I. destruct I as [I|[I|[I|[]]]]; injection I as <- <-; eexists _, _; (split; [exact B|reflexivity]).
Qed.

Definition alike (v v' : json) : Prop :=
  match v, v' with
  | JString _, JString _ | JNumber _, JNumber _ | JTrue, JTrue | JFalse, JFalse | JNull, JNull | JObject _, JObject _ | JArray _, JArray _ => True
  | _, _ => False
  end.

Lemma first_kind : forall v v' c, first_of v c -> first_of v' c -> alike v v'.
Proof. intros v v' c H H'. destruct v, v'; cbn in *; auto; subst; try discriminate; unfold digit in *; cbn in *; intuition (subst; cbn in *; try discriminate; lia). Qed.

Lemma read_alike : forall s v r v' r', reads_value s v r -> reads_value s v' r' -> alike v v'.
Proof.
  intros s v r v' r' H H'. destruct (first_seen _ _ _ H) as (c & t & B & F), (first_seen _ _ _ H') as (c' & t' & B' & F'). destruct (blanks_head _ _ _ _ _ B B') as [<- _]. exact (first_kind _ _ _ F F').
Qed.

Scheme value_mut := Minimality for reads_value Sort Prop
  with members_mut := Minimality for reads_members Sort Prop
  with elements_mut := Minimality for reads_elements Sort Prop.

Lemma word_one : forall s word v r v' r', blanks s (word ++ r) -> In (word, v) [(!"true", JTrue); (!"false", JFalse); (!"null", JNull)] -> reads_value s v' r' -> v = v' /\ r = r'.
Proof.
  intros s word v r v' r' B I H. pose proof (read_alike _ _ _ _ _ (value_word _ _ _ _ B I) H) as A.
  inversion H as [? ? ? ? B' R|? ? ? B' N E|? word' ? ? B' I'|? ? ? B' E|? ? ? ? B' M|? ? ? B' E|? ? ? ? B' M]; subst.
  3: { pose proof (blanks_one _ _ _ B B') as E. cbn in I, I'. destruct I as [I|[I|[I|[]]]]; injection I as <- <-; (destruct I' as [I'|[I'|[I'|[]]]]; injection I' as <- <-); cbn [alike] in A; try contradiction; cbn [app] in E; injection E as ->; auto. }
  all: exfalso; cbn in I; destruct I as [I|[I|[I|[]]]]; injection I as <- <-; exact A.
Qed.

Lemma reads_value_one : forall s v r, reads_value s v r -> forall v' r', reads_value s v' r' -> v = v' /\ r = r'.
Proof.
  apply (value_mut (fun s v r => forall v' r', reads_value s v' r' -> v = v' /\ r = r') (fun s ms r => forall ms' r', reads_members s ms' r' -> ms = ms' /\ r = r')
    (fun s vs r => forall vs' r', reads_elements s vs' r' -> vs = vs' /\ r = r')).
  - intros s s1 cs r B R v' r' H. pose proof (read_alike _ _ _ _ _ (value_string _ _ _ _ B R) H) as A.
    inversion H as [? ? cs' ? B' R'|? ? ? B' N E|? word' ? ? B' I'|? ? ? B' E|? ? ? ? B' M|? ? ? B' E|? ? ? ? B' M]; subst; try contradiction.
    + destruct (blanks_head _ _ _ _ _ B B') as [_ <-]. destruct (reads_string_one _ _ _ R _ _ R') as [-> ->]. auto.
    + destruct (word_one _ _ _ _ _ _ B' I' (value_string _ _ _ _ B R)). auto.
  - intros s t r B N E v' r' H. pose proof (read_alike _ _ _ _ _ (value_number _ _ _ B N E) H) as A.
    inversion H as [? ? cs' ? B' R'|? ? ? B' N' E'|? word' ? ? B' I'|? ? ? B' E'|? ? ? ? B' M|? ? ? B' E'|? ? ? ? B' M]; subst; try contradiction.
    + destruct (number_one _ _ _ _ (number_chars _ N) (number_chars _ N') E E' (blanks_one _ _ _ B B')) as [-> ->]. auto.
    + destruct (word_one _ _ _ _ _ _ B' I' (value_number _ _ _ B N E)). auto.
  - intros s word v r B I v' r' H. exact (word_one _ _ _ _ _ _ B I H).
  - intros s s1 r B B2 v' r' H. pose proof (read_alike _ _ _ _ _ (value_no_members _ _ _ B B2) H) as A.
    inversion H as [? ? cs' ? B' R'|? ? ? B' N' E'|? word' ? ? B' I'|? ? ? B' E'|? ? ? ? B' M|? ? ? B' E'|? ? ? ? B' M]; subst; try contradiction.
    + destruct (word_one _ _ _ _ _ _ B' I' (value_no_members _ _ _ B B2)). auto.
    + destruct (blanks_head _ _ _ _ _ B B') as [_ <-]. destruct (blanks_head _ _ _ _ _ B2 E') as [_ <-]. auto.
    + destruct (blanks_head _ _ _ _ _ B B') as [_ <-]. exfalso. inversion M; subst;
        match goal with X : blanks s1 (quote :: _) |- _ => destruct (blanks_head _ _ _ _ _ B2 X) as [X1 _]; discriminate X1 end.
  - intros s s1 ms r B M IH v' r' H. pose proof (read_alike _ _ _ _ _ (value_object _ _ _ _ B M) H) as A.
    inversion H as [? ? cs' ? B' R'|? ? ? B' N' E'|? word' ? ? B' I'|? ? ? B' E'|? ? ? ? B' M'|? ? ? B' E'|? ? ? ? B' M']; subst; try contradiction.
    + destruct (word_one _ _ _ _ _ _ B' I' (value_object _ _ _ _ B M)). auto.
    + destruct (blanks_head _ _ _ _ _ B B') as [_ <-]. exfalso. inversion M; subst;
        match goal with X : blanks s1 (quote :: _) |- _ => destruct (blanks_head _ _ _ _ _ E' X) as [X1 _]; discriminate X1 end.
    + destruct (blanks_head _ _ _ _ _ B B') as [_ <-]. destruct (IH _ _ M') as [-> ->]. auto.
  - intros s s1 r B B2 v' r' H. pose proof (read_alike _ _ _ _ _ (value_no_elements _ _ _ B B2) H) as A.
    inversion H as [? ? cs' ? B' R'|? ? ? B' N' E'|? word' ? ? B' I'|? ? ? B' E'|? ? ? ? B' M|? ? ? B' E'|? ? ? ? B' M]; subst; try contradiction.
    + destruct (word_one _ _ _ _ _ _ B' I' (value_no_elements _ _ _ B B2)). auto.
    + destruct (blanks_head _ _ _ _ _ B B') as [_ <-]. destruct (blanks_head _ _ _ _ _ B2 E') as [_ <-]. auto.
    + destruct (blanks_head _ _ _ _ _ B B') as [_ <-]. exfalso. inversion M; subst;
        match goal with X : reads_value s1 ?v _ |- _ => destruct (first_seen _ _ _ X) as (c & t & X1 & X2); destruct (blanks_head _ _ _ _ _ B2 X1) as [<- _]; destruct v; cbn in X2; unfold digit in X2; cbn in X2; intuition (try discriminate; lia) end.
  - intros s s1 vs r B M IH v' r' H. pose proof (read_alike _ _ _ _ _ (value_array _ _ _ _ B M) H) as A.
    inversion H as [? ? cs' ? B' R'|? ? ? B' N' E'|? word' ? ? B' I'|? ? ? B' E'|? ? ? ? B' M'|? ? ? B' E'|? ? ? ? B' M']; subst; try contradiction.
    + destruct (word_one _ _ _ _ _ _ B' I' (value_array _ _ _ _ B M)). auto.
    + destruct (blanks_head _ _ _ _ _ B B') as [_ <-]. exfalso. inversion M; subst;
        match goal with X : reads_value s1 ?v _ |- _ => destruct (first_seen _ _ _ X) as (c & t & X1 & X2); destruct (blanks_head _ _ _ _ _ E' X1) as [<- _]; destruct v; cbn in X2; unfold digit in X2; cbn in X2; intuition (try discriminate; lia) end.
    + destruct (blanks_head _ _ _ _ _ B B') as [_ <-]. destruct (IH _ _ M') as [-> ->]. auto.
  - intros s s1 key s2 s3 v s4 r B1 R B2 V IH B3 ms' r' H. inversion H as [? t1 key' t2 t3 v' t4 ? B1' R' B2' V' B3'|? t1 key' t2 t3 v' t4 t5 ms'' ? B1' R' B2' V' B3' M']; subst;
      destruct (blanks_head _ _ _ _ _ B1 B1') as [_ <-]; destruct (reads_string_one _ _ _ R _ _ R') as [<- <-]; destruct (blanks_head _ _ _ _ _ B2 B2') as [_ <-]; destruct (IH _ _ V') as [<- <-]; destruct (blanks_head _ _ _ _ _ B3 B3') as [X <-]; [auto|discriminate X].
  - intros s s1 key s2 s3 v s4 s5 ms r B1 R B2 V IH B3 M IHM ms' r' H. inversion H as [? t1 key' t2 t3 v' t4 ? B1' R' B2' V' B3'|? t1 key' t2 t3 v' t4 t5 ms'' ? B1' R' B2' V' B3' M']; subst;
      destruct (blanks_head _ _ _ _ _ B1 B1') as [_ <-]; destruct (reads_string_one _ _ _ R _ _ R') as [<- <-]; destruct (blanks_head _ _ _ _ _ B2 B2') as [_ <-]; destruct (IH _ _ V') as [<- <-]; destruct (blanks_head _ _ _ _ _ B3 B3') as [X <-]; [discriminate X|].
    destruct (IHM _ _ M') as [-> ->]. auto.
  - intros s v s1 r V IH B vs' r' H. inversion H as [? v' t1 ? V' B'|? v' t1 t2 vs'' ? V' B' M']; subst; destruct (IH _ _ V') as [<- <-]; destruct (blanks_head _ _ _ _ _ B B') as [X <-]; [auto|discriminate X].
  - intros s v s1 s2 vs r V IH B M IHM vs' r' H. inversion H as [? v' t1 ? V' B'|? v' t1 t2 vs'' ? V' B' M']; subst; destruct (IH _ _ V') as [<- <-]; destruct (blanks_head _ _ _ _ _ B B') as [X <-]; [discriminate X|].
    destruct (IHM _ _ M') as [-> ->]. auto.
Qed.

Lemma json_text_one : forall s v v', json_text s v -> json_text s v' -> v = v'.
Proof. intros s v v' (r & H & _) (r' & H' & _). destruct (reads_value_one _ _ _ H _ _ H') as [-> _]. reflexivity. Qed.
