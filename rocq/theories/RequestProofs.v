(** * Proofs about the requests to the wiki *)

From Coq Require Import Ascii String.
From Coq Require Import List Arith NArith ZArith Bool Lia.
From Verif Require Import GoStr GoStrFacts UtilModel CacheModel CacheSpec CacheProofs CacheProofs2 HttpModel HttpSpec HttpProofs HtmlModel ServiceSpec ImageSpec ImageFileProofs RequestSpec.
From Verif Require ShapeProofs.
Import ListNotations.
Local Open Scope list_scope.

(** ** Forms *)

Definition plus (c : ascii) : ascii := if Ascii.eqb c "+" then " "%char else c.

Lemma escape_plus : forall c, c <> " "%char -> map plus (escape_char c) = escape_char c.
Proof. intros c N. destruct c as [[] [] [] [] [] [] [] []]; vm_compute; auto. exfalso. apply N. reflexivity. Qed.

Lemma form_decode_char : forall c rest, form_decode (escape_char c ++ rest) = c :: form_decode rest.
Proof.
  intros c rest. unfold form_decode. rewrite map_app. change (fun c0 : ascii => if Ascii.eqb c0 "+" then " "%char else c0) with plus.
  destruct (ascii_dec c " ") as [->|B]; [reflexivity|]. rewrite escape_plus by auto. apply decode_char. exact B.
Qed.

Lemma form_decode_escape : forall s, form_decode (query_escape s) = s.
Proof. induction s as [|c s IH]; [reflexivity|]. unfold query_escape in *. cbn [flat_map]. rewrite form_decode_char, IH. reflexivity. Qed.


Lemma escape_safe : forall s d, In d (query_escape s) -> ~ In d [" "; "/"; "?"; "#"; "&"; "="]%char.
Proof.
  intros s d I. unfold query_escape in I. apply in_flat_map in I as (c & _ & I).
  assert (S : forallb (fun d => negb (existsb (Ascii.eqb d) [" "; "/"; "?"; "#"; "&"; "="]%char)) (escape_char c) = true) by (destruct c as [[] [] [] [] [] [] [] []]; vm_compute; reflexivity).
  rewrite forallb_forall in S. specialize (S d I). apply negb_true_iff in S. intros J. assert (existsb (Ascii.eqb d) [" "; "/"; "?"; "#"; "&"; "="]%char = true) by (apply existsb_exists; exists d; split; auto; apply Ascii.eqb_refl). congruence.
Qed.

Lemma cut_at : forall c a b, ~ In c a -> cut c (a ++ c :: b) = (a, Some b).
Proof.
  intros c. induction a as [|d a IH]; intros b N; cbn [app cut]; [rewrite Ascii.eqb_refl; reflexivity|]. rewrite (proj2 (Ascii.eqb_neq d c)) by (intros ->; apply N; left; reflexivity).
  rewrite IH by (intros I; apply N; right; exact I). reflexivity.
Qed.

Lemma pieces_one : forall c a, ~ In c a -> pieces c a = [a].
Proof.
  intros c. induction a as [|d a IH]; intros N; cbn [pieces]; auto. rewrite (proj2 (Ascii.eqb_neq d c)) by (intros ->; apply N; left; reflexivity). rewrite IH by (intros I; apply N; right; exact I). reflexivity.
Qed.

Lemma pieces_more : forall c a b, ~ In c a -> pieces c (a ++ c :: b) = a :: pieces c b.
Proof.
  intros c. induction a as [|d a IH]; intros b N; cbn [app pieces]; [rewrite Ascii.eqb_refl; reflexivity|]. rewrite (proj2 (Ascii.eqb_neq d c)) by (intros ->; apply N; left; reflexivity).
  rewrite IH by (intros I; apply N; right; exact I). reflexivity.
Qed.

(** The last field contains any text, the ones before are fixed. *)
Lemma form_last : forall name s, ~ In "="%char name -> ~ In "&"%char name -> form_decode name = name -> form (name ++ !"=" ++ query_escape s) = [(name, Some s)].
Proof.
  intros name s N1 N2 D. unfold form. rewrite pieces_one.
  - cbn [map]. unfold form_field. change (name ++ !"=" ++ query_escape s) with (name ++ "="%char :: query_escape s). rewrite cut_at by auto. cbn [option_map]. rewrite D, form_decode_escape. reflexivity.
  - intros I. apply in_app_or in I as [I|[I|I]]; [auto|discriminate|]. apply (escape_safe s "&"); auto. cbn [In]. auto 8.
Qed.

Lemma form_more : forall a b, ~ In "&"%char a -> form (a ++ !"&" ++ b) = form_field a :: form b.
Proof. intros a b N. unfold form. change (a ++ !"&" ++ b) with (a ++ "&"%char :: b). rewrite pieces_more by auto. reflexivity. Qed.

Lemma article_form : forall s, form (!"action=parse&prop=wikitext&redirects=true&format=json&page=" ++ query_escape s) =
  [(!"action", Some !"parse"); (!"prop", Some !"wikitext"); (!"redirects", Some !"true"); (!"format", Some !"json"); (!"page", Some s)].
Proof.
  intros s. change (form (!"action=parse" ++ !"&" ++ !"prop=wikitext" ++ !"&" ++ !"redirects=true" ++ !"&" ++ !"format=json" ++ !"&" ++ !"page" ++ !"=" ++ query_escape s) =
    [(!"action", Some !"parse"); (!"prop", Some !"wikitext"); (!"redirects", Some !"true"); (!"format", Some !"json"); (!"page", Some s)]).
  assert (N : forall (t : str), forallb (fun c => negb (Ascii.eqb "&" c)) t = true -> ~ In "&"%char t) by (intros t F I; rewrite forallb_forall in F; specialize (F _ I); discriminate).
  rewrite !form_more by (apply N; reflexivity). rewrite form_last; [reflexivity| | |reflexivity]; intros I; cbn [In] in I; repeat (destruct I as [I|I]; [discriminate|]); exact I.
Qed.

Lemma template_form : forall s, form (!"action=expandtemplates&format=json&prop=wikitext&text=" ++ query_escape s) =
  [(!"action", Some !"expandtemplates"); (!"format", Some !"json"); (!"prop", Some !"wikitext"); (!"text", Some s)].
Proof.
  intros s. change (form (!"action=expandtemplates" ++ !"&" ++ !"format=json" ++ !"&" ++ !"prop=wikitext" ++ !"&" ++ !"text" ++ !"=" ++ query_escape s) =
    [(!"action", Some !"expandtemplates"); (!"format", Some !"json"); (!"prop", Some !"wikitext"); (!"text", Some s)]).
  assert (N : forall (t : str), forallb (fun c => negb (Ascii.eqb "&" c)) t = true -> ~ In "&"%char t) by (intros t F I; rewrite forallb_forall in F; specialize (F _ I); discriminate).
  rewrite !form_more by (apply N; reflexivity). rewrite form_last; [reflexivity| | |reflexivity]; intros I; cbn [In] in I; repeat (destruct I as [I|I]; [discriminate|]); exact I.
Qed.

Lemma math_form : forall s, form (!"q=" ++ query_escape s) = [(!"q", Some s)].
Proof. intros s. apply (form_last !"q"); [| |reflexivity]; intros I; cbn [In] in I; repeat (destruct I as [I|I]; [discriminate|]); exact I. Qed.

Lemma underscores_replace : forall s, replace_all !" " !"_" s = underscores s.
Proof.
  intros s. rewrite replace_all_single. unfold underscores. induction s as [|c s IH]; [reflexivity|]. cbn [flat_map map]. rewrite IH, Ascii.eqb_sym. destruct (Ascii.eqb c " "); reflexivity.
Qed.

(** ** Requests *)

Definition call_asks (P : request -> Prop) (c : syscall) : Prop := match c with SDo q => P q | _ => True end.
Fixpoint asks {A} (P : request -> Prop) (p : prog A) : Prop :=
  match p with
  | Ret _ => True
  | Call c k => call_asks P c /\ forall r, asks P (k r)
  end.

Lemma asks_tsteps : forall A P fl (p : prog A) w tr p' w', asks P p -> tsteps fl p w tr p' w' -> every_request P tr.
Proof.
  intros A P fl p w tr p' w' H St. revert H. induction St as [p w|c k w r w' tr p'' w'' S1 S2 IH]; intros H; [constructor|]. destruct H as (H1 & H2). unfold every_request in *.
  apply Forall_app. split; [|apply IH; auto]. destruct c; cbn [event_of]; try constructor; auto.
Qed.

Lemma asks_bind : forall A C P (p : prog A) (f : A -> prog C), asks P p -> (forall a, asks P (f a)) -> asks P (pbind p f).
Proof. intros A C P p f. induction p as [a|c k IH]; intros H F; cbn [pbind asks] in *; auto. destruct H as (H1 & H2). split; auto. Qed.

Lemma asks_ok : forall A C P (p : prog (res A)) (f : A -> prog (res C)), asks P p -> (forall a, asks P (f a)) -> asks P (on_ok p f).
Proof. intros A C P p f H F. apply asks_bind; auto. intros [a| | |]; cbn [asks]; auto. Qed.

Lemma asks_mono : forall A (P Q : request -> Prop) (p : prog A), (forall q, P q -> Q q) -> asks P p -> asks Q p.
Proof. intros A P Q p H. induction p as [a|c k IH]; cbn [asks]; auto. intros (X & Y). split; auto. destruct c; cbn [call_asks] in *; auto. Qed.

Lemma asks_quiet : forall A P (p : prog A), quiet p -> asks P p.
Proof. intros A P p. induction p as [a|c k IH]; cbn [asks quiet]; auto. intros (X & Y). split; auto. destruct c; cbn [call_asks event_of] in *; auto. specialize (X None). discriminate. Qed.

Lemma asks_doRequest : forall (P : request -> Prop) fuel q, (forall u, P (mkRequest (q_post q) (q_url q) (q_body q) u)) -> asks P (doRequest fuel q).
Proof.
  intros P. induction fuel as [|fuel IH]; intros [post url body unread] H; cbn [doRequest asks call_asks q_post q_url q_body] in *; auto. split; auto.
  intros [r|]; cbn [asks]; auto. destruct (a_status r =? 429)%Z; cbn [asks call_asks]; [split; auto|]. destruct (negb _); cbn [asks]; auto. destruct (negb _); cbn [asks]; auto.
Qed.

Lemma asks_download : forall (P : request -> Prop) cfg efuel fuel url folder name, (forall q, gets url q -> P q) -> asks P (DownloadAndCache cfg efuel fuel url folder name).
Proof.
  intros P cfg efuel fuel url folder name H. unfold DownloadAndCache. apply asks_ok; [apply asks_quiet; apply quiet_GetFile|]. intros [|]; cbn [asks]; auto.
  apply asks_ok; [apply asks_doRequest; cbn [q_post q_url q_body]|intros r; apply asks_ok; [apply asks_quiet; apply quiet_CacheToFile|intros; exact I]].
  intros u. apply H. split; reflexivity.
Qed.

Section Wiki.
Variables (ext : externals) (cfg : cache_config) (wiki : wiki_config) (efuel fuel : nat).
Hypothesis escape : forall s, QueryEscape ext s = query_escape s.

Lemma article_asked : forall host title q, gets (article_url ext host title) q -> asks_article host title q.
Proof.
  intros host title q (P & U). split; auto. exists (!"action=parse&prop=wikitext&redirects=true&format=json&page=" ++ query_escape (underscores title)). split.
  - rewrite U. unfold article_url. rewrite escape, underscores_replace. rewrite <- !app_assoc. reflexivity.
  - rewrite article_form. reflexivity.
Qed.

Lemma article_asks : forall host title, asks (asks_article host title) (DownloadArticle ext cfg efuel fuel host title).
Proof.
  intros host title. unfold DownloadArticle. apply asks_ok; [apply asks_download; apply article_asked|]. intros (p & b). split; [exact I|]. intros [d|]; cbn [asks]; auto. destruct (json_article_title ext d); exact I.
Qed.

Lemma template_asks : forall template file, asks (asks_page (!"https://" ++ wikipediaInstance wiki ++ !"." ++ wikipediaHost wiki ++ !"/w/api.php")
    [(!"action", !"expandtemplates"); (!"format", !"json"); (!"prop", !"wikitext"); (!"text", template)]) (EvaluateTemplate ext cfg wiki efuel fuel template file).
Proof.
  intros template file. unfold EvaluateTemplate. apply asks_ok.
  - apply asks_download. intros q (P & U). split; auto. exists (!"action=expandtemplates&format=json&prop=wikitext&text=" ++ query_escape template). split; [|rewrite template_form; reflexivity].
    rewrite U, escape, <- !app_assoc. reflexivity.
  - intros (p & b). split; [exact I|]. intros [d|]; exact I.
Qed.

Lemma math_asks : forall formula, asks (posts_formula wiki formula) (getMathResource ext cfg wiki efuel fuel formula).
Proof.
  intros formula. unfold getMathResource. set (P := posts_formula wiki formula).
  assert (R : asks P (on_ok (PostFormEncoded fuel (wikipediaMathRestApi wiki ++ !"/check/tex") (!"q=" ++ QueryEscape ext (!"{\displaystyle " ++ formula ++ !"}"))) (fun response =>
        if str_eqb (a_location response) [] then Ret Err
        else on_ok (CacheToFile cfg efuel MathCacheDirName (Hash ext formula) [a_location response] true) (fun _ => Ret (Ok (a_location response)))))).
  { apply asks_ok.
    - apply asks_doRequest. intros u. split; [reflexivity|]. split; [reflexivity|]. cbn [q_body]. rewrite escape, math_form. reflexivity.
    - intros r. destruct (str_eqb _ _); [exact I|]. apply asks_ok; [apply asks_quiet; apply quiet_CacheToFile|intros; exact I]. }
  apply asks_bind; [apply asks_quiet; apply quiet_GetFile|]. intros [[|]| | |]; auto; try exact I. split; [exact I|]. intros [d|]; exact I.
Qed.

Lemma image_asked : forall host name q, (forall s, 2 <= length (md5hex ext s)) -> (forall h, is_wiki_domain ext h = true -> In "."%char h) -> ~ In " "%char name ->
  gets (image_url ext wiki host name) q -> q_post q = false /\ image_address ext wiki host name (q_url q).
Proof.
  intros host name q M D N (P & U). split; auto. unfold image_address. specialize (M name). unfold image_url in U. destruct (md5hex ext name) as [|a [|b digits]] eqn:E; cbn [length] in M; try lia.
  exists (if is_wiki_domain ext host then hd [] (split !"." host) else []), a, b, digits, (query_escape name). split; auto. split; [|split; [|split]].
  - destruct (is_wiki_domain ext host) eqn:W; auto. specialize (D host W). apply ShapeProofs.in_split_first in D as (x & y & -> & X). exists y.
    change !"." with ["."%char]. rewrite split_single_app by auto. cbn [hd]. auto.
  - rewrite U, escape. reflexivity.
  - rewrite <- (app_nil_r (query_escape name)). rewrite decode_escape by auto. apply app_nil_r.
  - intros c I J. apply (escape_safe name c I). cbn [In] in *. tauto.
Qed.
End Wiki.

(** ** Files *)

Lemma written_refl : forall P w, only_written P w w.
Proof. intros P w p _. auto. Qed.

Lemma written_same : forall P w w', files w' = files w -> only_written P w w'.
Proof. intros P w w' E p _. left. unfold content. rewrite E. reflexivity. Qed.

Lemma written_mono : forall (P Q : path -> str -> Prop) w w', (forall p d, P p d -> Q p d) -> only_written P w w' -> only_written Q w w'.
Proof. intros P Q w w' H W p T. destruct (W p T) as [X|[X|(d & X & Y)]]; eauto. right. right. eauto. Qed.

Lemma written_trans : forall P w w1 w', only_written P w w1 -> only_written P w1 w' -> only_written P w w'.
Proof.
  intros P w w1 w' A B p T. destruct (B p T) as [X|[X|(d & X & Y)]]; eauto. rewrite X. exact (A p T).
Qed.

Lemma delivered_more : forall P a b c d, delivered_for P b d -> delivered_for P (a ++ b ++ c) d.
Proof. intros P a b c d (q & r & I & H). exists q, r. split; auto. apply in_or_app. right. apply in_or_app. left. exact I. Qed.

Lemma download_written : forall cfg efuel fuel url folder name w tr r w' (P : request -> Prop), (0 <= CacheMaxAge cfg)%Z -> In folder cache_folders -> (forall q, gets url q -> P q) ->
  tends true (DownloadAndCache cfg efuel fuel url folder name) w tr r w' -> only_written (fun p d => p = cache_path folder name /\ delivered_for P tr d) w w'.
Proof.
  intros cfg efuel fuel url folder name w tr r w' P A F H St p T. destruct (DownloadAndCache_any_state cfg efuel fuel url folder name w tr (Ret r) w' A F St p T) as [X|[X|(-> & d & (tr' & a & -> & _ & S & C & ->) & X)]]; auto.
  right. right. eexists. split; [exact X|]. split; auto. exists (get_request url), a. split; [apply in_or_app; right; left; reflexivity|]. split; [apply H; split; reflexivity|]. auto.
Qed.

Lemma store_written : forall cfg efuel folder name chunks readOk w tr r w', In folder cache_folders ->
  tends true (CacheToFile cfg efuel folder name chunks readOk) w tr r w' -> only_written (fun p d => p = cache_path folder name /\ d = all_data chunks) w w'.
Proof.
  intros cfg efuel folder name chunks readOk w tr r w' F St p T. apply tsteps_steps in St.
  destruct (safe_inv _ _ _ _ _ (safe_steps _ _ _ _ _ _ _ St (CacheToFile_complete true cfg efuel folder name chunks readOk w F)) p T) as [X|[X|(-> & _ & X)]]; auto. right. right. eauto.
Qed.

Lemma lookup_written : forall P cfg folder name w tr r w', (0 <= CacheMaxAge cfg)%Z -> tends true (GetFile cfg folder name) w tr r w' -> only_written P w w'.
Proof.
  intros P cfg folder name w tr r w' A St p T. apply tsteps_steps in St. destruct (GetFile_others cfg folder name w (Ret r) w' A St) as (X & Y).
  destruct (path_eq_dec p (cache_path folder name)) as [->|N]; [tauto|]. left. unfold content. rewrite X by auto. reflexivity.
Qed.

Lemma on_ok_written : forall A C P (p : prog (res A)) (f : A -> prog (res C)) w tr r w',
  tends true (on_ok p f) w tr r w' ->
  (forall tr1 r1 w1, tends true p w tr1 r1 w1 -> (exists tr2, tr = tr1 ++ tr2) -> only_written P w w1) ->
  (forall tr1 a w1 tr2, tends true p w tr1 (Ok a) w1 -> tends true (f a) w1 tr2 r w' -> tr = tr1 ++ tr2 -> only_written P w1 w') ->
  only_written P w w'.
Proof.
  intros A C P p f w tr r w' H H1 H2. apply tends_on_ok in H as [(a & w1 & tr1 & tr2 & X & Y & E)|(X & _)].
  - eapply written_trans; eauto.
  - eapply H1; eauto. exists []. rewrite app_nil_r. reflexivity.
Qed.

Lemma delivered_left : forall P tr1 tr2 d, delivered_for P tr1 d -> delivered_for P (tr1 ++ tr2) d.
Proof. intros P tr1 tr2 d (q & r & I & H). exists q, r. split; auto. apply in_or_app. left. exact I. Qed.
Lemma delivered_right : forall P tr1 tr2 d, delivered_for P tr2 d -> delivered_for P (tr1 ++ tr2) d.
Proof. intros P tr1 tr2 d (q & r & I & H). exists q, r. split; auto. apply in_or_app. right. exact I. Qed.

Lemma read_same : forall fl w p x w1, sys_step fl w (SReadFile p) x w1 -> files w1 = files w.
Proof. intros fl w p x w1 (E & _). exact E. Qed.

Lemma doRequest_files : forall fuel q w tr r w', tends true (doRequest fuel q) w tr r w' -> files w' = files w.
Proof.
  induction fuel as [|fuel IH]; intros q w tr r w' H; cbn [doRequest] in H; [apply tends_ret in H as (_ & _ & ->); auto|].
  apply tends_call in H as (x & w1 & tr1 & (E & _) & H & _). rewrite <- E. destruct x as [a|]; [|apply tends_ret in H as (_ & _ & ->); auto].
  destruct (a_status a =? 429)%Z.
  - apply tends_call in H as (y & w2 & tr2 & (E2 & _) & H & _). rewrite <- E2. eapply IH. exact H.
  - destruct (negb _); [|destruct (negb _)]; apply tends_ret in H as (_ & _ & ->); auto.
Qed.

Lemma doRequest_answer : forall fuel q w tr a w', tends true (doRequest fuel q) w tr (Ok a) w' -> exists q', In (Asked q' (Some a)) tr /\ successful a.
Proof.
  induction fuel as [|fuel IH]; intros q w tr r w' H; cbn [doRequest] in H; [apply tends_ret in H as (E & _); discriminate|].
  apply tends_call in H as (x & w1 & tr1 & _ & H & ->). destruct x as [a|]; [|apply tends_ret in H as (E & _); discriminate].
  destruct (a_status a =? 429)%Z.
  - apply tends_call in H as (y & w2 & tr2 & _ & H & ->). apply IH in H as (q' & I & S). exists q'. split; auto. apply in_or_app. right. apply in_or_app. right. exact I.
  - destruct (a_status a =? 200)%Z eqn:B; cbn [negb] in H; [|apply tends_ret in H as (E & _); discriminate]. destruct (str_eqb (a_api_error a) []) eqn:C; cbn [negb] in H; apply tends_ret in H as (E & _); [|discriminate].
    injection E as ->. exists q. split; [left; reflexivity|]. split; [apply Z.eqb_eq; exact B|apply str_eqb_eq; exact C].
Qed.

Section Written.
Variables (ext : externals) (cfg : cache_config) (wiki : wiki_config) (efuel fuel : nat).
Hypothesis escape : forall s, QueryEscape ext s = query_escape s.
Hypothesis age : (0 <= CacheMaxAge cfg)%Z.

Lemma article_written : forall host title w tr r w', tends true (DownloadArticle ext cfg efuel fuel host title) w tr r w' ->
  only_written (fun p d => p = cache_path !"articles" (underscores title ++ !".json") /\ delivered_for (asks_article host title) tr d) w w'.
Proof.
  intros host title w tr r w' H. unfold DownloadArticle in H. eapply on_ok_written; [exact H| |].
  - intros tr1 r1 w1 X (tr2 & ->). eapply download_written in X; [|exact age|cbn; tauto|apply (article_asked ext escape host title)]. eapply written_mono; [|exact X].
    intros p d (E & D). split; [rewrite E; unfold article_file; rewrite underscores_replace; reflexivity|apply delivered_left; exact D].
  - intros tr1 (p & b) w1 tr2 _ Y _. apply tends_call in Y as (x & w2 & tr' & S & Y & _). apply read_same in S. eapply written_trans; [apply written_same; exact S|].
    destruct x as [d|]; [destruct (json_article_title ext d)|]; apply tends_ret in Y as (_ & _ & ->); apply written_refl.
Qed.

Lemma article_titled : forall host title w tr t x w', tends true (DownloadArticle ext cfg efuel fuel host title) w tr (Ok (t, x)) w' -> titled ext host title t w tr.
Proof.
  intros host title w tr t x w' H. unfold DownloadArticle in H. apply tends_on_ok in H as [((p & b) & w1 & tr1 & tr2 & X & Y & ->)|(_ & N)]; [|exfalso; eapply N; reflexivity].
  apply tends_call in Y as (y & w2 & tr' & (E & _ & S) & Y & ->). destruct y as [d|]; [|apply tends_ret in Y as (Y & _); discriminate].
  destruct (json_article_title ext d) as [t'|] eqn:J; apply tends_ret in Y as (Y & _); [|discriminate]. injection Y as -> _. exists d. split; auto.
  assert (F : article_file title = underscores title ++ !".json") by (unfold article_file; rewrite underscores_replace; reflexivity). rewrite <- F.
  destruct b.
  - apply DownloadAndCache_fresh in X as (-> & d' & (tr0 & a & -> & _ & X1 & X2 & ->) & X3); [|exact age|cbn; tauto]. right. rewrite X3 in S. injection S as <-.
    exists (get_request (article_url ext host title)), a. split; [apply in_or_app; left; apply in_or_app; right; left; reflexivity|]. split; [apply (article_asked ext escape); split; reflexivity|]. auto.
  - apply DownloadAndCache_hit in X as (-> & _ & f & now & L & _ & _ & X3); [|exact age|cbn; tauto]. left. rewrite X3 in S. injection S as <-. unfold content. change !"articles" with ArticleCacheDirName. rewrite L. reflexivity.
Qed.

Lemma template_written : forall template file w tr r w', tends true (EvaluateTemplate ext cfg wiki efuel fuel template file) w tr r w' ->
  only_written (fun p d => p = cache_path !"templates" file /\ delivered_for (asks_page (!"https://" ++ wikipediaInstance wiki ++ !"." ++ wikipediaHost wiki ++ !"/w/api.php")
    [(!"action", !"expandtemplates"); (!"format", !"json"); (!"prop", !"wikitext"); (!"text", template)]) tr d) w w'.
Proof.
  intros template file w tr r w' H. unfold EvaluateTemplate in H. eapply on_ok_written; [exact H| |].
  - intros tr1 r1 w1 X (tr2 & ->). eapply download_written in X; [|exact age|cbn; tauto|]; [eapply written_mono; [|exact X]; intros p d (E & D); split; [exact E|apply delivered_left; exact D]|].
    intros q (P & U). split; auto. exists (!"action=expandtemplates&format=json&prop=wikitext&text=" ++ query_escape template). split; [|rewrite template_form; reflexivity].
    rewrite U, escape, <- !app_assoc. reflexivity.
  - intros tr1 (p & b) w1 tr2 _ Y _. apply tends_call in Y as (x & w2 & tr' & S & Y & _). apply read_same in S. eapply written_trans; [apply written_same; exact S|].
    destruct x as [d|]; apply tends_ret in Y as (_ & _ & ->); apply written_refl.
Qed.

(** The name of the pictures of a formula *)
Lemma math_written : forall formula w tr r w', tends true (getMathResource ext cfg wiki efuel fuel formula) w tr r w' ->
  exists name, (forall n, r = Ok n -> n = name /\ (content w (cache_path !"math" (Hash ext formula)) = Some name \/
      exists q a, In (Asked q (Some a)) tr /\ posts_formula wiki formula q /\ successful a /\ a_location a = name)) /\
    only_written (fun p d => p = cache_path !"math" (Hash ext formula) /\ d = name) w w'.
Proof.
  intros formula w tr r w' H. pose proof (asks_tsteps _ _ _ _ _ _ _ _ (math_asks ext cfg wiki efuel fuel escape formula) H) as EV. unfold getMathResource in H. apply tends_bind in H as (x & w1 & tr1 & tr2 & H1 & H2 & ->).
  set (rq := on_ok _ _) in H2.
  assert (Q1 : tr1 = []) by (eapply quiet_tends; [apply quiet_GetFile|exact H1]). subst tr1. cbn [app] in *.
  assert (R : forall w1 tr r w', tends true rq w1 tr r w' ->
    exists name, (forall n, r = Ok n -> n = name /\ exists q a, In (Asked q (Some a)) tr /\ successful a /\ a_location a = name) /\
      only_written (fun p d => p = cache_path !"math" (Hash ext formula) /\ d = name) w1 w').
  { clear H1 H2 EV. intros v t y v' K. unfold rq in K. apply tends_on_ok in K as [(a & v1 & t1 & t2 & K1 & K2 & ->)|(K1 & N)].
    - assert (F : files v1 = files v) by (eapply doRequest_files; exact K1). assert (L : exists q, In (Asked q (Some a)) t1 /\ successful a) by (eapply doRequest_answer; exact K1).
      destruct L as (q & L1 & L2). exists (a_location a). destruct (str_eqb (a_location a) []).
      + apply tends_ret in K2 as (-> & _ & ->). split; [discriminate|]. apply written_same. exact F.
      + split.
        * intros n ->. apply tends_on_ok in K2 as [(u & v2 & t3 & t4 & _ & K3 & ->)|(_ & N)]; [|exfalso; eapply N; reflexivity]. apply tends_ret in K3 as (E & _). injection E as ->. split; auto.
          exists q, a. split; [apply in_or_app; left; exact L1|auto].
        * eapply written_trans; [apply written_same; exact F|]. eapply on_ok_written; [exact K2| |].
          -- intros t3 r3 v2 K3 _. eapply store_written in K3; [|cbn; tauto]. eapply written_mono; [|exact K3]. intros p d (-> & ->). split; auto. cbn [all_data concat]. apply app_nil_r.
          -- intros t3 u v2 t4 _ K4 _. apply tends_ret in K4 as (_ & _ & ->). apply written_refl.
    - exists []. split; [intros n ->; exfalso; eapply N; reflexivity|]. apply written_same. eapply doRequest_files. exact K1. }
  assert (W1 : only_written (fun p d => p = cache_path !"math" (Hash ext formula) /\ d = []) w w1) by (eapply lookup_written; eauto).
  assert (G : forall tr r, tends true rq w1 tr r w' -> every_request (posts_formula wiki formula) tr ->
    exists name, (forall n, r = Ok n -> n = name /\ (content w (cache_path !"math" (Hash ext formula)) = Some name \/
      exists q a, In (Asked q (Some a)) tr /\ posts_formula wiki formula q /\ successful a /\ a_location a = name)) /\
    only_written (fun p d => p = cache_path !"math" (Hash ext formula) /\ d = name) w w').
  { intros t y K E. destruct (R _ _ _ _ K) as (name & N & W). exists name. split.
    - intros n X. destruct (N n X) as (N1 & q & a & I & S & L). split; auto. right. exists q, a. split; auto. split; auto. unfold every_request in E. rewrite Forall_forall in E. apply (E _ I).
    - eapply written_trans; [|exact W]. eapply lookup_written; eauto. }
  destruct x as [[|]| | |]; try (apply G; [exact H2|exact EV]).
  - apply tends_call in H2 as (y & w2 & tr3 & S & H2 & ->). destruct S as (E & _ & S). apply tends_ret in H2 as (-> & -> & ->). destruct y as [d|].
    + exists d. split; [|eapply written_trans; [eapply lookup_written; eauto|apply written_same; exact E]]. intros n X. injection X as ->. split; auto. left.
      apply tsteps_steps in H1. destruct (GetFile_others _ _ _ _ _ _ age H1) as (_ & [C|C]).
      * change MathCacheDirName with !"math" in *. congruence.
      * change MathCacheDirName with !"math" in *. congruence.
    + exists []. split; [discriminate|]. eapply written_trans; [eapply lookup_written; eauto|apply written_same; exact E].
  - apply tends_ret in H2 as (-> & -> & ->). exists []. split; [discriminate|auto].
  - apply tends_ret in H2 as (-> & -> & ->). exists []. split; [discriminate|auto].
Qed.

Local Notation math_request := (RequestSpec.math_request wiki).
Local Notation math_file := (RequestSpec.math_file ext wiki).

Lemma convert_written : forall fl (P : path -> str -> Prop) w a b r w', sys_step fl w (SConvert a b) r w' -> (forall d, P b d) -> only_written P w w'.
Proof.
  intros fl P w a b r w' (C & S) H p T.
  assert (E : files w' = files w \/ exists d, files w' = mkFile b d (clock w') :: delete b (files w)) by (destruct r; auto). clear S.
  destruct E as [E|(d & E)]; unfold content; rewrite E; auto. rewrite lookup_cons. cbn [f_path]. destruct (path_eq_dec b p) as [->|N].
  - right. right. exists d. split; auto.
  - left. rewrite lookup_delete_neq by auto. reflexivity.
Qed.

Lemma formula_written : forall converter formula w tr r w', tends true (RenderMath ext cfg wiki efuel fuel converter formula) w tr r w' ->
  exists name, only_written (math_file converter formula name tr) w w' /\ every_request (math_request converter formula name) tr /\
    forall svg png, r = Ok (svg, png) ->
      (content w (cache_path !"math" (Hash ext formula)) = Some name \/
        exists q a, In (Asked q (Some a)) tr /\ posts_formula wiki formula q /\ successful a /\ a_location a = name) /\
      svg = cache_path !"images" (name ++ !".svg") /\ converter <> MathUnknown /\
      png = cache_path !"images" (name ++ match converter with MathNone => !".svg" | _ => !".png" end).
Proof.
  intros converter formula w tr r w' H. unfold RenderMath in H. apply tends_on_ok in H as [(name0 & w1 & tr1 & tr2 & X & Y & ->)|(X & N)].
  2: { pose proof (asks_tsteps _ _ _ _ _ _ _ _ (math_asks ext cfg wiki efuel fuel escape formula) X) as E1. destruct (math_written formula w tr _ w' X) as (name & M1 & M2). exists name.
       split; [eapply written_mono; [|exact M2]; intros p d D; left; exact D|]. split; [|intros svg png ->; exfalso; eapply N; reflexivity].
       unfold every_request in *. eapply Forall_impl; [|exact E1]. intros [q a|n]; auto. intros Q. left. exact Q. }
  pose proof (asks_tsteps _ _ _ _ _ _ _ _ (math_asks ext cfg wiki efuel fuel escape formula) X) as E1. destruct (math_written formula w tr1 _ w1 X) as (name & M1 & M2). destruct (M1 name0 eq_refl) as (-> & M3). exists name.
  assert (EV : every_request (math_request converter formula name) (tr1 ++ tr2)).
  { unfold every_request. apply Forall_app. split; [unfold every_request in E1; eapply Forall_impl; [|exact E1]; intros [q a|n]; auto; intros Q; left; exact Q|].
    eapply asks_tsteps; [|exact Y]. apply asks_ok; [apply asks_download; intros q Q; right; left; exact Q|]. intros (svg & b). destruct converter; cbn [asks]; auto.
      * apply asks_ok; [apply asks_download; intros q Q; right; right; auto|]. intros (png & c). exact I.
      * split; [exact I|]. intros [|]; exact I. }
  assert (D1 : forall tr3 r3 w2, tends true (DownloadAndCache cfg efuel fuel (svg_address wiki name) ImageCacheDirName (name ++ !".svg")) w1 tr3 r3 w2 -> (exists tr4, tr2 = tr3 ++ tr4) ->
    only_written (math_file converter formula name (tr1 ++ tr2)) w1 w2 /\ forall svg b, r3 = Ok (svg, b) -> svg = cache_path !"images" (name ++ !".svg")).
  { intros tr3 r3 w2 D (tr4 & ->). split.
    - eapply written_mono; [|refine (download_written _ _ _ _ _ _ _ _ _ _ (gets (svg_address wiki name)) age _ (fun q G => G) D); cbn; tauto]. intros p d (-> & G). right. left. split; [reflexivity|].
      apply delivered_right. apply delivered_left. exact G.
    - intros svg b ->. destruct b; [apply DownloadAndCache_fresh in D|apply DownloadAndCache_hit in D]; auto; try (cbn; tauto); apply D. }
  split; [|split; [exact EV|]].
  - eapply written_trans; [eapply written_mono; [|exact M2]; intros p d D; left; exact D|]. eapply on_ok_written; [exact Y| |].
    + intros tr3 r3 w2 D E. eapply D1; eauto.
    + intros tr3 (svg & b) w2 tr4 _ Z ->. destruct converter.
      * apply tends_ret in Z as (_ & _ & ->). apply written_refl.
      * eapply on_ok_written; [exact Z| |].
        -- intros tr5 r5 w3 D (tr6 & ->). eapply written_mono; [|refine (download_written _ _ _ _ _ _ _ _ _ _ (gets (png_address wiki name)) age _ (fun q G => G) D); cbn; tauto]. intros p d (-> & G). right. right.
           split; [reflexivity|]. right. split; [reflexivity|]. apply delivered_right. apply delivered_right. apply delivered_left. exact G.
        -- intros tr5 (png & c) w3 tr6 _ K _. apply tends_ret in K as (_ & _ & ->). apply written_refl.
      * apply tends_call in Z as (x & w3 & tr5 & S & Z & _). apply tends_ret in Z as (_ & _ & ->). eapply convert_written; [exact S|]. intros d. right. right. split; [reflexivity|]. left. reflexivity.
      * apply tends_ret in Z as (_ & _ & ->). apply written_refl.
  - intros svg png ->. split.
    + destruct M3 as [M3|(q & a & I & M3)]; auto. right. exists q, a. split; [apply in_or_app; left; exact I|exact M3].
    + apply tends_on_ok in Y as [((s & b) & w2 & tr3 & tr4 & D & Z & ->)|(_ & N)]; [|exfalso; eapply N; reflexivity].
      assert (B : s = cache_path !"images" (name ++ !".svg")) by (eapply D1; eauto). clear D1. destruct converter.
      * apply tends_ret in Z as (E & _). injection E as -> ->. split; [exact B|split; [discriminate|exact B]].
      * apply tends_on_ok in Z as [((g & c) & w3 & tr5 & tr6 & D2 & Z & _)|(_ & N)]; [|exfalso; eapply N; reflexivity]. apply tends_ret in Z as (E & _). injection E as -> ->. split; [exact B|]. split; [discriminate|].
        destruct c; [apply DownloadAndCache_fresh in D2|apply DownloadAndCache_hit in D2]; auto; try (cbn; tauto); apply D2.
      * apply tends_call in Z as (x & w3 & tr5 & _ & Z & _). apply tends_ret in Z as (E & _). destruct x; [|discriminate]. injection E as -> ->. split; [exact B|]. split; [discriminate|reflexivity].
      * apply tends_ret in Z as (E & _). discriminate.
Qed.

Lemma after_colon_name : forall image n, after_colon image = Ok n -> name_in_title image n.
Proof.
  intros image n H. unfold after_colon in H. change !":" with [":"%char] in H. destruct (in_dec ascii_dec ":"%char image) as [I|N].
  - apply ShapeProofs.in_split_first in I as (a & b & -> & A). rewrite split_single_app in H by auto. destruct (in_dec ascii_dec ":"%char b) as [I|N].
    + apply ShapeProofs.in_split_first in I as (c & d & -> & C). rewrite split_single_app in H by auto. cbn [nth_error] in H. injection H as <-. exists a, (":"%char :: d). repeat split; auto. right. exists d. reflexivity.
    + rewrite split_single_none in H by auto. cbn [nth_error] in H. injection H as <-. exists a, []. rewrite app_nil_r. repeat split; auto.
  - rewrite split_single_none in H by auto. discriminate.
Qed.

Lemma name_after_colon : forall n image, ~ In ":"%char n -> after_colon (image ++ !":" ++ n) = Ok n \/ In ":"%char image.
Proof.
  intros n image N. destruct (in_dec ascii_dec ":"%char image) as [I|M]; auto. left. unfold after_colon. change !":" with [":"%char]. cbn [app]. rewrite split_single_app by auto. rewrite split_single_none by auto. reflexivity.
Qed.

Lemma underscores_no_blank : forall s, ~ In " "%char (underscores s).
Proof. intros s I. unfold underscores in I. apply in_map_iff in I as (c & E & _). destruct (Ascii.eqb c " ") eqn:B; [discriminate|]. subst. discriminate. Qed.

Lemma rewrite_written : forall fl (P : path -> str -> Prop) w q r w', sys_step fl w (SRewrite q) r w' -> (forall d, P q d) -> only_written P w w'.
Proof.
  intros fl P w q r w' (C & [(_ & E)|(d & E)]) H p T; unfold content; [rewrite E; auto|]. rewrite E, lookup_update by auto. destruct (lookup p (files w)) as [f|]; cbn [option_map]; auto. destruct (path_eq_dec p q) as [->|N]; auto.
  right. right. exists d. split; [reflexivity|auto].
Qed.

Local Notation image_written_file := (RequestSpec.image_written_file ext wiki).

Lemma image_written : forall host image w tr r w', (forall s, 2 <= length (md5hex ext s)) -> (forall h, is_wiki_domain ext h = true -> In "."%char h) ->
  tends true (downloadImage ext cfg wiki efuel fuel host image) w tr r w' ->
  (tr = [] /\ w' = w /\ ~ In ":"%char image) \/
  exists n, name_in_title image n /\
    every_request (fun q => asks_article host (!"File:" ++ n) q \/ asks_image ext wiki host (!"File:" ++ n) w tr q) tr /\
    only_written (image_written_file host n w tr) w w' /\ forall p fresh, r = Ok (p, fresh) -> p = cache_path !"images" (underscores n).
Proof.
  intros host image w tr r w' M5 WD H. unfold downloadImage in H. destruct (after_colon image) as [n| | |] eqn:A.
  2-4: (left; apply tends_ret in H as (_ & -> & ->); repeat split; auto; intros I; unfold after_colon in A; apply ShapeProofs.in_split_first in I as (a & b & -> & N); change !":" with [":"%char] in A; rewrite split_single_app in A by auto;
    pose proof (split_nonempty [":"%char] b) as X; destruct (split [":"%char] b); [contradiction|discriminate]).
  right. exists n. pose proof (after_colon_name image n A) as NT. split; auto.
  assert (NC : ~ In ":"%char n) by (destruct NT as (a & b & _ & _ & X & _); exact X).
  assert (O : after_colon (!"File:" ++ n) = Ok n) by (destruct (name_after_colon n !"File" NC) as [X|X]; [exact X|cbn [In] in X; repeat (destruct X as [X|X]; [discriminate|]); destruct X]).
  apply tends_on_ok in H as [((t & x) & w1 & tr1 & tr2 & X & Y & ->)|(X & N)].
  2: { pose proof (asks_tsteps _ _ _ _ _ _ _ _ (article_asks ext cfg efuel fuel escape host (!"File:" ++ n)) X) as E1. split; [|split].
       - unfold every_request in *. eapply Forall_impl; [|exact E1]. intros [q a|k]; auto.
       - eapply written_mono; [|exact (article_written _ _ _ _ _ _ X)]. intros p d D. left. exact D.
       - intros p fresh ->. exfalso. eapply N. reflexivity. }
  pose proof (asks_tsteps _ _ _ _ _ _ _ _ (article_asks ext cfg efuel fuel escape host (!"File:" ++ n)) X) as E1. pose proof (article_titled _ _ _ _ _ _ _ X) as TI.
  assert (W1 : only_written (image_written_file host n w (tr1 ++ tr2)) w w1) by (eapply written_mono; [|exact (article_written _ _ _ _ _ _ X)]; intros p d (D1 & D2); left; split; [exact D1|apply delivered_left; exact D2]).
  assert (E1' : every_request (fun q => asks_article host (!"File:" ++ n) q \/ asks_image ext wiki host (!"File:" ++ n) w (tr1 ++ tr2) q) tr1) by (unfold every_request in *; eapply Forall_impl; [|exact E1]; intros [q a|k]; auto).
  rewrite O in Y. destruct (after_colon t) as [y| | |] eqn:B.
  2-4: (apply tends_ret in Y as (-> & -> & ->); rewrite app_nil_r in *; split; [exact E1'|split; [exact W1|discriminate]]).
  pose proof (after_colon_name t y B) as NY.
  assert (AI : forall q, gets (image_url ext wiki host (replace_all !" " !"_" y)) q -> asks_image ext wiki host (!"File:" ++ n) w (tr1 ++ tr2) q).
  { intros q G. rewrite underscores_replace in G. apply (image_asked ext wiki escape host (underscores y) q M5 WD) in G as (G1 & G2); [|apply underscores_no_blank]. split; auto.
    exists t, y. split; [|split; auto]. destruct TI as (bytes & J & D). exists bytes. split; auto. destruct D as [D|D]; auto. right. apply delivered_left. exact D. }
  rewrite !underscores_replace in Y. rewrite underscores_replace in AI.
  assert (DW : forall tr3 r3 w2, tends true (DownloadAndCache cfg efuel fuel (image_url ext wiki host (underscores y)) ImageCacheDirName (underscores n)) w1 tr3 r3 w2 -> (exists tr4, tr2 = tr3 ++ tr4) ->
    only_written (image_written_file host n w (tr1 ++ tr2)) w1 w2 /\ forall p b, r3 = Ok (p, b) -> p = cache_path !"images" (underscores n)).
  { intros tr3 r3 w2 D (tr4 & T4). split.
    - eapply written_mono; [|refine (download_written _ _ _ _ _ _ _ _ _ _ (asks_image ext wiki host (!"File:" ++ n) w (tr1 ++ tr2)) age _ AI D); cbn; tauto]. intros p d (-> & G). right. split; [reflexivity|]. left.
      rewrite T4 at 2. apply delivered_right. apply delivered_left. exact G.
    - intros p b ->. destruct b; [apply DownloadAndCache_fresh in D|apply DownloadAndCache_hit in D]; auto; try (cbn; tauto); apply D. }
  split; [|split].
  - unfold every_request. apply Forall_app. split; [exact E1'|]. eapply asks_tsteps; [|exact Y]. apply asks_ok; [apply asks_download; intros q G; right; auto|]. intros (p & b). destruct (_ && _); [split; [exact I|]; intros; exact I|exact I].
  - eapply written_trans; [exact W1|]. eapply on_ok_written; [exact Y| |].
    + intros tr3 r3 w2 D E. eapply DW; eauto.
    + intros tr3 (p & b) w2 tr4 D Z T4. destruct (b && SvgSizeToViewbox wiki && str_eqb (path_ext (last p [])) !".svg") eqn:C.
      * apply tends_call in Z as (k & w3 & tr5 & S & Z & _). apply tends_ret in Z as (_ & _ & ->). eapply rewrite_written; [exact S|]. intros d. right.
        apply andb_true_iff in C as (C & C3). apply andb_true_iff in C as (_ & C2). apply str_eqb_eq in C3. split; [eapply DW; eauto|auto].
      * apply tends_ret in Z as (_ & _ & ->). apply written_refl.
  - intros p fresh ->. apply tends_on_ok in Y as [((p' & b) & w2 & tr3 & tr4 & D & Z & T4)|(_ & N)]; [|exfalso; eapply N; reflexivity].
    assert (p = p') by (destruct (b && SvgSizeToViewbox wiki && str_eqb (path_ext (last p' [])) !".svg"); [apply tends_call in Z as (k & w3 & tr5 & _ & Z & _)|]; apply tends_ret in Z as (E & _); congruence). subst p'. eapply DW; eauto.
Qed.
End Written.
