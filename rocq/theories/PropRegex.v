(** * The regular expressions of the program (C72) *)

From Coq Require Import Ascii String.
From Coq Require Import List Arith NArith Bool Lia.
From Verif Require Import GoStr GoStrFacts UtilModel ConfigModel TokenModel CleanerModel ParagraphModel HeadingModel ImageModel TableModel ReferenceModel ExpandModel EpubModel RegexSpec RegexProofs.
Import ListNotations.
Local Open Scope list_scope.

Ltac step := first [rewrite run_cons | rewrite run_nil | rewrite run_word | rewrite run_word_i | rewrite run_lazily | rewrite run_greedily | rewrite run_group | rewrite run_seq | rewrite run_alt | rewrite run_empty | rewrite run_char | rewrite run_end].

Definition not_nl (c : ascii) : bool := negb (existsb (Ascii.eqb c) nl).
Lemma not_nl_eq : forall c, not_nl c = negb (Ascii.eqb c nl_char).
Proof. intros c. unfold not_nl, nl. cbn [existsb]. rewrite orb_false_r. auto. Qed.

(** ** Alignment of cells *)

Lemma align_end_upto : forall s, align_end s = option_map (fun i => firstn (S i) s) (upto not_nl ";" s).
Proof.
  induction s as [|c s IH]; auto. cbn [align_end upto]. destruct (Ascii.eqb c ";"); auto. rewrite not_nl_eq. destruct (Ascii.eqb c nl_char); auto. cbn [negb].
  rewrite IH. destruct (upto not_nl ";" s); auto.
Qed.

Lemma align_here : forall s, option_map matched (match_here tableTextAlignRegex s) = align_match s.
Proof.
  intros s. rewrite match_run. unfold tableTextAlignRegex, align_match. do 2 step. destruct (has_prefix !"text-align:" s) eqn:P; [|reflexivity].
  apply has_prefix_spec in P as (t & ->). change (skipn 11 (!"text-align:" ++ t)) with t. change (length !"text-align:") with 11. change (skipn 11 (!"text-align:" ++ t)) with t.
  cbn [fst snd]. unfold plus. do 2 step. unfold any, none_of. step. destruct t as [|c t]; [reflexivity|]. fold (not_nl c). rewrite not_nl_eq. destruct (Ascii.eqb c nl_char) eqn:N; [reflexivity|]. cbn [negb fst snd].
  step. rewrite (lazily_ext not_nl t _ (fun x => if has_prefix !";" x then
     Some (mkFound 0 (firstn (length (!"text-align:" ++ c :: t) - length (skipn 1 x)) (!"text-align:" ++ c :: t)) []) else None)).
  2: { intros x. cbn [fst snd]. do 2 step. destruct (has_prefix !";" x); [|reflexivity]. step. reflexivity. }
  rewrite (lazily_upto found not_nl ";" t (fun x => mkFound 0 (firstn (length (!"text-align:" ++ c :: t) - length x) (!"text-align:" ++ c :: t)) [])).
  rewrite align_end_upto. destruct (upto not_nl ";" t) as [i|] eqn:U; [|reflexivity]. cbn [option_map matched]. f_equal. apply upto_length in U.
  replace (!"text-align:" ++ c :: t) with ((!"text-align:" ++ c :: firstn (S i) t) ++ skipn (S i) t) by (rewrite <- app_assoc; cbn [app]; rewrite firstn_skipn; reflexivity).
  rewrite taken. reflexivity.
Qed.

Lemma find_matched : forall r (f g : str -> option str), (forall s, option_map matched (match_here r s) = f s) ->
  (forall s, g s = match f s with Some m => Some m | None => match s with [] => None | _ :: s' => g s' end end) -> forall s, option_map matched (find r s) = g s.
Proof.
  intros r f g H G. induction s as [|c s IH]; rewrite G, <- H; cbn [find].
  - destruct (match_here r []); reflexivity.
  - destruct (match_here r (c :: s)); [reflexivity|]. cbn [option_map]. rewrite <- IH. destruct (find r s); reflexivity.
Qed.

(** The alignment of a cell is the first match of text-align:.+?; in its attributes. *)
Theorem C72_alignment : forall s, find_align s = option_map matched (find tableTextAlignRegex s).
Proof.
  intros s. symmetry. apply (find_matched _ align_match find_align); [apply align_here|]. intros [|c t]; reflexivity.
Qed.
Print Assumptions C72_alignment.

(** ** Links with a prefix *)

Definition not_bracket (c : ascii) : bool := negb (existsb (Ascii.eqb c) !"]").
Lemma prefix_end_upto : forall s, prefix_end s = upto not_bracket ":" s.
Proof.
  induction s as [|c s IH]; auto. cbn [prefix_end upto]. destruct (Ascii.eqb c ":"); auto. unfold not_bracket at 1. cbn [existsb list_ascii_of_string]. rewrite orb_false_r.
  destruct (Ascii.eqb c "]"); auto. cbn [negb]. rewrite IH. auto.
Qed.

Lemma link_here : forall s, option_map (fun m => length (matched m)) (match_here internalLinkStartRegex s) = link_start_match s.
Proof.
  intros s. rewrite match_run. unfold internalLinkStartRegex, link_start_match. do 2 step. destruct (has_prefix !"[[" s) eqn:P; [|reflexivity].
  apply has_prefix_spec in P as (t & ->). change (skipn 2 (!"[[" ++ t)) with t. change (skipn (length !"[[") (!"[[" ++ t)) with t.
  cbn [fst snd]. unfold plus. step. step. step. unfold none_of. step. destruct t as [|c t]; [reflexivity|]. fold (not_bracket c). destruct (Ascii.eqb c "]") eqn:N.
  { unfold not_bracket. cbn [existsb list_ascii_of_string]. rewrite N. reflexivity. }
  replace (not_bracket c) with true by (unfold not_bracket; cbn [existsb list_ascii_of_string]; rewrite N; reflexivity).
  cbn [fst snd]. step. fold not_bracket.
  rewrite (lazily_ext not_bracket t _ (fun x => if has_prefix !":" x then
     Some (mkFound 0 (firstn (length (!"[[" ++ c :: t) - length (skipn 1 x)) (!"[[" ++ c :: t)) [(1, firstn (length (c :: t) - S (length (skipn 1 x))) (c :: t))]) else None)).
  2: { intros x. cbn [fst snd]. do 2 step. destruct x as [|d x]; [reflexivity|]. destruct (has_prefix !":" (d :: x)) eqn:H; [|reflexivity]. step. reflexivity. }
  rewrite (lazily_upto found not_bracket ":" t (fun x => mkFound 0 (firstn (length (!"[[" ++ c :: t) - length x) (!"[[" ++ c :: t)) [(1, firstn (length (c :: t) - S (length x)) (c :: t))])).
  rewrite prefix_end_upto. destruct (upto not_bracket ":" t) as [i|] eqn:U; [|reflexivity]. cbn [option_map matched]. f_equal. apply upto_length in U.
  rewrite firstn_length, skipn_length. cbn [app length list_ascii_of_string]. lia.
Qed.

(** The next image is looked for with [[([^]]+?): (with escaped brackets): the position of the match and the position behind it. *)
Theorem C72_links : forall s, find_link_start s = option_map (fun m => (position m, position m + length (matched m))) (find internalLinkStartRegex s).
Proof.
  induction s as [|c s IH]; [reflexivity|]. cbn [find_link_start find]. rewrite <- link_here. destruct (match_here internalLinkStartRegex (c :: s)) as [m|] eqn:E.
  - cbn [option_map]. rewrite (match_position _ _ _ E). reflexivity.
  - cbn [option_map]. rewrite IH. destruct (find internalLinkStartRegex s); reflexivity.
Qed.
Print Assumptions C72_links.

(** ** Galleries and image maps *)

Lemma tag_end_upto : forall s, tag_end s = upto not_nl ">" s.
Proof. induction s as [|c s IH]; auto. cbn [tag_end upto]. destruct (Ascii.eqb c ">"); auto. rewrite not_nl_eq. destruct (Ascii.eqb c nl_char); auto. cbn [negb]. rewrite IH. auto. Qed.

Lemma lower_letter : forall d c, In d !"/>" -> Ascii.eqb d (lower_char c) = Ascii.eqb d c.
Proof. intros d c I. cbn in I. destruct I as [<-|[<-|[]]]; destruct c as [[] [] [] [] [] [] [] []]; reflexivity. Qed.
Lemma lower_single : forall d s, In d !"/>" -> has_prefix (to_lower [d]) (to_lower s) = has_prefix [d] s.
Proof.
  intros d [|c s] I; [reflexivity|]. cbn [to_lower map]. rewrite !has_prefix_single. rewrite <- (lower_letter d c I). f_equal. cbn in I. destruct I as [<-|[<-|[]]]; reflexivity.
Qed.

Lemma start_here : forall tag line, option_map (fun m => skipn (length (matched m)) line) (match_here (sequence [word_i tag; Star false any; word_i !">"]) line) = remove_start_tag tag line.
Proof.
  intros tag line. rewrite match_run. unfold remove_start_tag, HasPrefixIgnoreCase. do 2 step. destruct (has_prefix (to_lower tag) (to_lower line)) eqn:P; [|reflexivity].
  assert (L : length tag <= length line) by (apply has_prefix_length in P; unfold to_lower in P; rewrite !map_length in P; auto).
  cbn [fst snd]. step. unfold any, none_of. step. fold not_nl. set (t := skipn (length tag) line).
  rewrite (lazily_ext not_nl t _ (fun x => if has_prefix !">" x then Some (mkFound 0 (firstn (length line - length (skipn 1 x)) line) []) else None)).
  2: { intros x. cbn [fst snd]. do 2 step. change !">" with [">"%char]. rewrite lower_single by (right; left; auto). destruct (has_prefix [">"%char] x); [|reflexivity]. step. reflexivity. }
  rewrite (lazily_upto found not_nl ">" t (fun x => mkFound 0 (firstn (length line - length x) line) [])). rewrite tag_end_upto.
  destruct (upto not_nl ">" t) as [i|] eqn:U; [|reflexivity]. cbn [option_map matched]. f_equal. apply upto_length in U. unfold t in *. rewrite skipn_length in U.
  rewrite firstn_length, !skipn_length. f_equal. lia.
Qed.

(** The beginning of a gallery or an image map: the line without the match of (?i)^<gallery.*?> or (?i)^<imagemap.*?> *)
Theorem C72_galleries : forall line,
  remove_start_tag !"<gallery" line = option_map (fun m => skipn (length (matched m)) line) (match_here galleryStartRegex line) /\
  remove_start_tag !"<imagemap" line = option_map (fun m => skipn (length (matched m)) line) (match_here imagemapStartRegex line).
Proof. intros line. split; symmetry; apply start_here. Qed.
Print Assumptions C72_galleries.

Lemma word_i_here : forall w s, is_some (match_here (word_i w) s) = has_prefix (to_lower w) (to_lower s).
Proof. intros. rewrite match_run, run_word_i. destruct (has_prefix _ _); reflexivity. Qed.

Lemma find_some : forall r (f : str -> bool), (forall s, is_some (match_here r s) = f s) -> forall s, is_some (find r s) = f s || match s with [] => false | _ :: s' => is_some (find r s') end.
Proof.
  intros r f H s. rewrite <- H. destruct s as [|c s]; cbn [find]; destruct (match_here _ _); cbn [is_some orb]; auto. destruct (find r s); reflexivity.
Qed.

(** An image of a gallery has a frame: (?i)(mini|thumb) *)
Theorem C72_frame : forall line, hasNonInlineParameter line = is_some (find hasNonInlineParameterRegex line).
Proof.
  assert (H : forall s, is_some (match_here hasNonInlineParameterRegex s) = has_prefix !"mini" (to_lower s) || has_prefix !"thumb" (to_lower s)).
  { intros s. rewrite match_run. unfold hasNonInlineParameterRegex. step. step. do 2 step. change (to_lower !"mini") with !"mini". change (to_lower !"thumb") with !"thumb".
    destruct (has_prefix !"mini" (to_lower s)), (has_prefix !"thumb" (to_lower s)); reflexivity. }
  intros line. unfold hasNonInlineParameter, imageNonInlineParameters. cbn [existsb]. rewrite orb_false_r. unfold contains.
  induction line as [|c s IH]; rewrite (find_some _ _ H); [reflexivity|]. rewrite <- IH. change (to_lower (c :: s)) with (lower_char c :: to_lower s).
  cbn [index]. destruct (has_prefix !"mini" (lower_char c :: to_lower s)), (has_prefix !"thumb" (lower_char c :: to_lower s)), (index !"mini" (to_lower s)), (index !"thumb" (to_lower s)); reflexivity.
Qed.
Print Assumptions C72_frame.

(** ** Tables *)

Lemma greedy_colons : forall A s (k : str -> option A), (forall x, has_prefix !"{|" x = false -> k x = None) ->
  greedily (Ascii.eqb ":") s k = match table_start s with Some colons => k (skipn (length colons) s) | None => None end.
Proof.
  intros A s k N. induction s as [|c s IH]; [cbn [greedily table_start]; apply N; reflexivity|]. cbn [greedily table_start]. rewrite (Ascii.eqb_sym ":" c).
  destruct (Ascii.eqb c ":") eqn:E.
  - apply Ascii.eqb_eq in E as ->. rewrite IH. destruct (table_start s) as [cs|] eqn:T; cbn [option_map length skipn].
    + destruct (k (skipn (length cs) s)) eqn:K; auto.
    + apply N. reflexivity.
  - destruct (has_prefix !"{|" (c :: s)) eqn:H; [reflexivity|]. apply N. exact H.
Qed.

Lemma table_start_length : forall s cs, table_start s = Some cs -> length cs <= length s /\ firstn (length cs) s = cs.
Proof.
  induction s as [|c s IH]; intros cs T; [discriminate|]. cbn [table_start] in T. destruct (Ascii.eqb c ":").
  - destruct (table_start s) as [cs'|]; [|discriminate]. injection T as <-. destruct (IH cs' eq_refl). cbn [length firstn]. split; [lia|congruence].
  - destruct (has_prefix _ _); [|discriminate]. injection T as <-. cbn. split; [lia|auto].
Qed.

(** The beginning of a table, with the colons in front of it: the first group of ^(:* )(\{\|.* ) (without the blanks) *)
Theorem C72_table_start : forall line, table_start line = match match_here tableStartRegex line with Some m => group 1 (groups m) | None => None end.
Proof.
  intros line. rewrite match_run. unfold tableStartRegex. step. step. unfold is. step.
  match goal with |- context [greedily _ _ ?k0] => set (k := k0) end.
  assert (Y : forall x, has_prefix !"{|" x = true -> exists m, k x = Some m /\ group 1 (groups m) = Some (firstn (length line - length x) line)).
  { intros x H. unfold k. cbn [fst snd]. do 4 step. rewrite H. cbn [fst snd]. step. unfold any, none_of. step.
    match goal with |- exists m, greedily ?p ?t ?f = _ /\ _ => assert (F : forall y, exists m, f y = Some m /\ group 1 (groups m) = Some (firstn (length line - length x) line)) end.
    { intros y. do 2 step. eexists. split; [reflexivity|]. reflexivity. }
    match goal with |- exists m, greedily ?p ?t ?f = _ /\ _ => generalize t as z; intros z; set (f0 := f) in * end. clear - F.
    induction z as [|c z IH]; cbn [greedily]; [apply F|]. destruct (negb _); [|apply F]. destruct IH as (m & E & G). rewrite E. eauto. }
  rewrite (greedy_colons _ line k).
  - destruct (table_start line) as [cs|] eqn:T; [|reflexivity]. assert (H : has_prefix !"{|" (skipn (length cs) line) = true).
    { clear - T. revert cs T. induction line as [|c s IH]; intros cs T; [discriminate|]. cbn [table_start] in T. destruct (Ascii.eqb c ":") eqn:E.
      - destruct (table_start s) as [cs'|]; [|discriminate]. injection T as <-. apply IH. auto.
      - destruct (has_prefix !"{|" (c :: s)) eqn:H; [|discriminate]. injection T as <-. exact H. }
    destruct (Y _ H) as (m & -> & ->). destruct (table_start_length _ _ T) as (L & F). rewrite taken_skipn by exact L. rewrite F. reflexivity.
  - intros x H. unfold k. cbn [fst snd]. do 4 step. rewrite H. reflexivity.
Qed.
Print Assumptions C72_table_start.

Ltac walk := first [rewrite go_word | rewrite go_word_i | rewrite go_cons | rewrite go_nil | rewrite go_lazily | rewrite go_greedily | rewrite go_group | rewrite go_seq | rewrite go_alt | rewrite go_empty | rewrite go_char | rewrite go_end].

Lemma greedily_span : forall A p s (k : str -> option A) g, (forall x, k x = Some (g x)) -> greedily p s k = Some (g (snd (span p s))).
Proof.
  intros A p s k g K. induction s as [|c s IH]; cbn [greedily span]; [apply K|]. destruct (p c); [|apply K]. rewrite IH. destruct (span p s). reflexivity.
Qed.
Lemma span_parts : forall p s, fst (span p s) ++ snd (span p s) = s.
Proof. intros p s. induction s as [|c s IH]; auto. cbn [span]. destruct (p c); auto. destruct (span p s). cbn [fst snd app] in *. congruence. Qed.
Lemma quote_parts : forall s, fst (optional_quote s) ++ snd (optional_quote s) = s.
Proof. intros [|c s]; auto. unfold optional_quote. destruct (Ascii.eqb c dq_char); auto. Qed.

(** Behind the equal sign *)
Lemma span_rest : forall w s t, s = w ++ t ->
  go (sequence [optional (word dq); Group 2 (plus true digit); optional (word dq)]) t (fun x => Some (firstn (length s - length x) s)) =
  (let (q1, s1) := optional_quote t in let (digits, s2) := span is_digit s1 in
   match digits with [] => None | _ => let (q2, _) := optional_quote s2 in Some (w ++ q1 ++ digits ++ q2) end).
Proof.
  intros w s t E. set (K := fun x : str => Some (firstn (length s - length x) s)).
  assert (Q : forall x, go (sequence [optional (word dq)]) x K = Some (firstn (length s - length (snd (optional_quote x))) s)).
  { intros x. unfold optional. do 3 walk. destruct x as [|c x]; [reflexivity|].
    change dq with [dq_char]. rewrite has_prefix_single, Ascii.eqb_sym. unfold optional_quote. destruct (Ascii.eqb c dq_char); cbn [fst snd length skipn]; rewrite ?go_nil, ?go_empty, ?go_nil; reflexivity. }
  assert (D : forall q u, s = w ++ q ++ u -> go (sequence [Group 2 (plus true digit); optional (word dq)]) u K =
    (let (digits, s2) := span is_digit u in match digits with [] => None | _ => let (q2, _) := optional_quote s2 in Some (w ++ q ++ digits ++ q2) end)).
  { intros q u Eu. unfold plus, digit. do 4 walk. destruct u as [|c u]; [reflexivity|]. cbn [span]. destruct (is_digit c) eqn:P; [|reflexivity]. walk.
    rewrite (greedily_span _ _ _ _ _ Q). pose proof (span_parts is_digit u) as S1. destruct (span is_digit u) as [d s2]. cbn [fst snd] in *. pose proof (quote_parts s2) as S2.
    destruct (optional_quote s2) as [q2 s3]. cbn [fst snd] in *. f_equal. rewrite Eu, <- S1, <- S2.
    replace (w ++ q ++ c :: d ++ q2 ++ s3) with ((w ++ q ++ (c :: d) ++ q2) ++ s3) by (cbn [app]; rewrite <- !app_assoc; cbn [app]; rewrite <- ?app_assoc; reflexivity). apply taken. }
  unfold optional at 1. do 3 walk. destruct t as [|c t]; [do 2 walk; reflexivity|]. change dq with [dq_char] at 1. rewrite has_prefix_single, Ascii.eqb_sym. unfold optional_quote at 1.
  destruct (Ascii.eqb c dq_char) eqn:C.
  - cbn [length skipn]. change (skipn (length dq) (c :: t)) with t. rewrite (D [c] t E). walk. rewrite (D [] (c :: t) E). apply Ascii.eqb_eq in C as ->. change (span is_digit (dq_char :: t)) with (@nil ascii, dq_char :: t).
    destruct (span is_digit t) as [[|d l] s2]; auto. destruct (optional_quote s2). reflexivity.
  - walk. rewrite (D [] (c :: t) E). reflexivity.
Qed.

Lemma span_here : forall s, option_map matched (match_here tableRowAndColspanRegex s) = span_match s.
Proof.
  intros s. rewrite match_go. unfold tableRowAndColspanRegex, span_match. do 3 walk.
  assert (W : forall w, length w = 7 -> (if has_prefix w s then go (sequence [word !"="; optional (word dq); Group 2 (plus true digit); optional (word dq)]) (skipn (length w) s) (fun x => Some (firstn (length s - length x) s)) else None) =
    if has_prefix (w ++ !"=") s then (let (q1, s1) := optional_quote (skipn 8 s) in let (digits, s2) := span is_digit s1 in
      match digits with [] => None | _ => let (q2, _) := optional_quote s2 in Some (firstn 8 s ++ q1 ++ digits ++ q2) end) else None).
  { intros w L. destruct (has_prefix w s) eqn:P.
    - apply has_prefix_spec in P as (t & ->). rewrite prefix_skipn. do 2 walk. destruct (has_prefix !"=" t) eqn:H.
      + apply has_prefix_spec in H as (u & ->). rewrite (span_rest (w ++ !"=") (w ++ !"=" ++ u) (skipn (length !"=") (!"=" ++ u))) by (rewrite <- app_assoc; reflexivity).
        rewrite app_assoc. rewrite has_prefix_app. change (skipn (length !"=") (!"=" ++ u)) with u.
        replace (skipn 8 ((w ++ !"=") ++ u)) with u by (replace 8 with (length (w ++ !"=")) by (rewrite app_length, L; reflexivity); rewrite prefix_skipn; reflexivity).
        replace (firstn 8 ((w ++ !"=") ++ u)) with (w ++ !"=") by (replace 8 with (length (w ++ !"=")) by (rewrite app_length, L; reflexivity); rewrite firstn_app, Nat.sub_diag, firstn_O, app_nil_r, firstn_all; reflexivity).
        reflexivity.
      + replace (has_prefix (w ++ !"=") (w ++ t)) with false; [reflexivity|]. symmetry. apply has_prefix_false. intros u K. rewrite <- app_assoc in K. apply app_inv_head in K. subst t. discriminate.
    - replace (has_prefix (w ++ !"=") s) with false; [reflexivity|]. symmetry. apply has_prefix_false. intros u K. rewrite has_prefix_false in P. apply (P (!"=" ++ u)). rewrite K, <- app_assoc. reflexivity. }
  walk. rewrite (W !"colspan") by reflexivity. walk. rewrite (W !"rowspan") by reflexivity. change (!"colspan" ++ !"=") with !"colspan=". change (!"rowspan" ++ !"=") with !"rowspan=".
  destruct (has_prefix !"colspan=" s), (has_prefix !"rowspan=" s); cbn [orb]; auto; destruct (optional_quote (skipn 8 s)) as [q1 s1]; destruct (span is_digit s1) as [[|d l] s2]; auto; destruct (optional_quote s2); auto.
Qed.

Lemma span_matches_scan : forall s k, span_matches s k = scan span_match (@length ascii) s k.
Proof. reflexivity. Qed.

Lemma span_nonempty : forall s m, span_match s = Some m -> 0 < length m.
Proof.
  intros s m E. unfold span_match in E. destruct (_ || _) eqn:P; [|discriminate]. destruct (optional_quote _) as [q1 s1]. destruct (span is_digit s1) as [[|d l] s2]; [discriminate|].
  destruct (optional_quote s2). injection E as <-. rewrite !app_length. cbn [length]. lia.
Qed.

(** The numbers of columns and rows of a cell: all matches of the expression in its attributes *)
Theorem C72_spans : forall s, span_matches s 0 = map matched (find_all tableRowAndColspanRegex s).
Proof.
  intros s. rewrite span_matches_scan. symmetry. apply scan_all.
  - apply span_here.
  - reflexivity.
  - reflexivity.
  - intros t f E. pose proof (span_here t) as H. rewrite E in H. eapply span_nonempty. symmetry. exact H.
Qed.
Print Assumptions C72_spans.

(** ** Lists of footnotes *)

Lemma lazily_some : forall A p s (k : str -> option A) f, (forall x, is_some (k x) = f x) ->
  is_some (lazily p s k) = f s || match s with c :: s' => p c && is_some (lazily p s' k) | [] => false end.
Proof. intros A p [|c s] k f H; rewrite <- H; cbn [lazily]; destruct (k _); cbn [is_some orb]; auto. destruct (p c); auto. Qed.
Lemma greedily_some : forall A p s (k : str -> option A) f, (forall x, is_some (k x) = f x) ->
  is_some (greedily p s k) = f s || match s with c :: s' => p c && is_some (greedily p s' k) | [] => false end.
Proof.
  intros A p [|c s] k f H; rewrite <- H; cbn [greedily]; [rewrite orb_false_r; auto|]. destruct (p c); cbn [andb]; [|rewrite orb_false_r; auto].
  destruct (greedily p s k); cbn [is_some]; [rewrite orb_true_r; auto|rewrite orb_false_r; auto].
Qed.

Lemma space_class : forall c, existsb (Ascii.eqb c) [" "%char; "009"%char; "010"%char; "012"%char; "013"%char] = regex_space c.
Proof. reflexivity. Qed.

Lemma close_some : forall A s (k : str -> option A), (forall x, is_some (k x) = true) -> is_some (go (sequence [Star true space; word_i !">"]) s k) = space_then_close s.
Proof.
  intros A s k K. walk. unfold space, one_of. walk. assert (F : forall x, is_some (go (sequence [word_i !">"]) x k) = has_prefix [">"%char] x).
  { intros x. do 2 walk. change !">" with [">"%char]. rewrite lower_single by (right; left; auto). destruct (has_prefix _ x); auto. walk. apply K. }
  induction s as [|c s IH]; rewrite (greedily_some _ _ _ _ _ F); [reflexivity|]. cbn [space_then_close]. rewrite IH, space_class, has_prefix_single, Ascii.eqb_sym. reflexivity.
Qed.

Lemma tag_some : forall r tag rest, (forall s, is_some (match_here r s) = HasPrefixIgnoreCase s tag && rest (skipn (length tag) s)) -> tag <> [] ->
  forall s, is_some (find r s) = tag_match tag rest s.
Proof.
  intros r tag rest H N. induction s as [|c s IH]; rewrite (find_some _ _ H); [destruct tag; [contradiction|reflexivity]|]. cbn [tag_match]. rewrite IH. reflexivity.
Qed.

(** Lists of footnotes: (?i)<references.*?/\s*> and (?i)<references.*?\s*> and (?i)</references\s*> *)
Theorem C72_footnotes : forall s,
  is_placeholder_short s = is_some (find referencePlaceholderShortRegex s) /\
  is_placeholder_start s = is_some (find referencePlaceholderStartRegex s) /\
  is_placeholder_end s = is_some (find referencePlaceholderEndRegex s).
Proof.
  intros s. split; [|split]; symmetry; apply tag_some; try discriminate; intros t; rewrite some_go.
  - unfold referencePlaceholderShortRegex. do 2 walk. unfold HasPrefixIgnoreCase. destruct (has_prefix _ _); [|reflexivity]. cbn [andb]. generalize (skipn (length !"<references") t). clear. intros t.
    walk. unfold any, none_of. walk. fold not_nl.
    assert (F : forall x, is_some (go (sequence [word_i !"/"; Star true space; word_i !">"]) x Some) = has_prefix ["/"%char] x && space_then_close (skipn 1 x)).
    { intros x. do 2 walk. change !"/" with ["/"%char]. rewrite lower_single by (left; auto). destruct (has_prefix _ x); auto. cbn [andb length]. apply close_some. reflexivity. }
    induction t as [|c t IH]; rewrite (lazily_some _ _ _ _ _ F); [reflexivity|]. cbn [short_rest]. rewrite IH, not_nl_eq, has_prefix_single, Ascii.eqb_sym. reflexivity.
  - unfold referencePlaceholderStartRegex. do 2 walk. unfold HasPrefixIgnoreCase. destruct (has_prefix _ _); [|reflexivity]. cbn [andb]. generalize (skipn (length !"<references") t). clear. intros t.
    walk. unfold any, none_of. walk. fold not_nl.
    assert (F : forall x, is_some (go (sequence [Star true space; word_i !">"]) x Some) = space_then_close x) by (intros x; apply close_some; reflexivity).
    induction t as [|c t IH]; rewrite (lazily_some _ _ _ _ _ F); [reflexivity|]. cbn [start_rest]. rewrite IH, not_nl_eq. reflexivity.
  - unfold referencePlaceholderEndRegex. do 2 walk. unfold HasPrefixIgnoreCase. destruct (has_prefix _ _); [|reflexivity]. cbn [andb]. apply close_some. reflexivity.
Qed.
Print Assumptions C72_footnotes.

(** ** Formulas *)

Definition formula_found (f : found) : str * str := (matched f, match group 1 (groups f) with Some g => g | None => [] end).

Lemma any_letter : forall c s, results (Group 2 (Alt any (Alt (is nl_char) (is "013"%char)))) (c :: s) <> [] /\
  Forall (fun x => fst x = s) (results (Group 2 (Alt any (Alt (is nl_char) (is "013"%char)))) (c :: s)).
Proof.
  intros c s. cbn [results any none_of is]. unfold nl. cbn [existsb]. rewrite orb_false_r, (Ascii.eqb_sym nl_char c).
  destruct (Ascii.eqb c nl_char), (Ascii.eqb "013" c); cbn [negb map app fst]; split; try discriminate; repeat constructor.
Qed.

Lemma formula_rest : forall s w y, s = w ++ y ->
  run (sequence [Group 1 (Star false (Group 2 (Alt any (Alt (is nl_char) (is "013"%char))))); word !"</math>"]) y
    (fun x => option_map formula_found (Some (mkFound 0 (firstn (length s - length (fst x)) s) (snd x)))) =
  match index !"</math>" y with Some j => Some (firstn (length w + j + 7) s, firstn j y) | None => None end.
Proof.
  intros s w y E. do 2 step. unfold run at 1. cbn [results].
  set (g := fun z : str => (firstn (length s - length z) s, firstn (length y - (7 + length z)) y)).
  rewrite (repeated_lazily _ (results (Group 2 (Alt any (Alt (is nl_char) (is "013"%char))))) eq_refl any_letter y _
    (fun x => if has_prefix !"</math>" x then Some (g (skipn (length !"</math>") x)) else None)).
  - rewrite lazily_index. destruct (index !"</math>" y) as [j|] eqn:I; [|reflexivity]. cbn [option_map]. apply index_some in I as (_ & L & _). unfold g. change (length !"</math>") with 7 in *.
    rewrite skipn_length. subst s. rewrite app_length. f_equal. f_equal; f_equal; lia.
  - intros x l. cbn [fst snd]. do 2 step. destruct (has_prefix !"</math>" x) eqn:H; [|reflexivity]. step. cbn [option_map fst snd]. unfold formula_found. cbn [matched groups].
    apply has_prefix_spec in H as (z & ->). rewrite !prefix_skipn. unfold g. reflexivity.
Qed.

Lemma formula_here : forall s, option_map formula_found (match_here mathRegex s) = math_match s.
Proof.
  intros s. rewrite match_run, run_map. unfold mathRegex, math_match. do 2 step. destruct (has_prefix !"<math" s) eqn:P; [|reflexivity].
  apply has_prefix_spec in P as (t & ->). rewrite prefix_skipn. change (skipn 5 (!"<math" ++ t)) with t. cbn [fst snd]. step. unfold any at 1, none_of. step. fold not_nl.
  set (s := !"<math" ++ t). set (R := sequence [Group 1 (Star false (Group 2 (Alt any (Alt (is nl_char) (is "013"%char))))); word !"</math>"]).
  set (k := fun y => match index !"</math>" y with Some j => Some (firstn (length s - length y + j + 7) s, firstn j y) | None => None end).
  assert (K : forall a y, t = a ++ y -> run R y (fun x => option_map formula_found (Some (mkFound 0 (firstn (length s - length (fst x)) s) (snd x)))) = k y).
  { intros a y E. unfold R. rewrite (formula_rest s (!"<math" ++ a) y) by (unfold s; rewrite E, <- app_assoc; reflexivity). unfold k. destruct (index !"</math>" y); auto.
    unfold s. rewrite E, !app_length. do 3 f_equal. lia. }
  match goal with |- lazily _ _ ?f0 = _ => set (f := f0) end.
  assert (F : forall a x, t = a ++ x -> f x = if has_prefix [">"%char] x then k (skipn 1 x) else None).
  { intros a x E. unfold f. cbn [fst snd]. do 2 step. change !">" with [">"%char]. destruct (has_prefix [">"%char] x) eqn:H; [|reflexivity]. apply has_prefix_spec in H as (z & ->). cbn [app skipn length fst snd].
    rewrite <- (K (a ++ [">"%char]) z) by (rewrite E, <- app_assoc; reflexivity). apply run_ext. intros [x g]. cbn [fst snd]. rewrite !app_nil_r. reflexivity. }
  rewrite (lazily_ext_suffix _ _ _ _ _ F), lazily_first.
  - rewrite tag_end_upto. destruct (upto not_nl ">" t) as [i|] eqn:U; [|reflexivity]. apply upto_length in U. unfold k. replace (5 + i + 1) with (5 + S i) by lia.
    change (skipn (5 + S i) s) with (skipn (S i) t). destruct (index !"</math>" (skipn (S i) t)); auto. do 2 f_equal. unfold s. rewrite app_length, skipn_length. cbn [length list_ascii_of_string]. f_equal. lia.
  - intros c x. unfold k. destruct (index !"</math>" (c :: x)) eqn:I; [discriminate|]. rewrite (index_none_cons _ _ _ I). auto.
Qed.

Lemma formula_nonempty : forall s m g, math_match s = Some (m, g) -> 0 < length m.
Proof.
  intros s m g E. unfold math_match in E. destruct (has_prefix !"<math" s) eqn:P; [|discriminate]. apply has_prefix_spec in P as (t & ->).
  destruct (tag_end _); [|discriminate]. destruct (index _ _); [|discriminate]. injection E as <- <-. cbn. lia.
Qed.

(** Formulas: all matches of <math.*?>((.|\n|\r)*?)</math> with their first groups *)
Theorem C72_formulas : forall s, math_matches s 0 = map (fun f => (matched f, match group 1 (groups f) with Some g => g | None => [] end)) (find_all mathRegex s).
Proof.
  intros s. symmetry. transitivity (scan math_match (fun x => length (fst x)) s 0).
  - apply (scan_all mathRegex formula_found).
    + apply formula_here.
    + reflexivity.
    + reflexivity.
    + intros t f E. pose proof (formula_here t) as H. rewrite E in H. eapply formula_nonempty. symmetry. exact H.
  - generalize 0 as k. induction s as [|c s IH]; intros k; auto. cbn [scan math_matches]. destruct k; [|auto]. destruct (math_match (c :: s)) as [[m g]|]; rewrite IH; auto.
Qed.
Print Assumptions C72_formulas.

(** ** Removal of a text in any case *)

Lemma word_i_found : forall w s, match_here (word_i w) s = if HasPrefixIgnoreCase s w then Some (mkFound 0 (firstn (length w) s) []) else None.
Proof.
  intros w s. rewrite match_run, run_word_i. unfold HasPrefixIgnoreCase. destruct (has_prefix _ _) eqn:P; [|reflexivity]. cbn [fst snd]. rewrite taken_skipn; auto.
  apply has_prefix_length in P. unfold to_lower in P. rewrite !map_length in P. auto.
Qed.

Lemma remove_skip : forall old s k, remove_ignore_case old s k = remove_ignore_case old (skipn k s) 0.
Proof. induction s as [|c s IH]; intros [|k]; try reflexivity. cbn [remove_ignore_case skipn]. apply IH. Qed.

Lemma remove_find : forall old s, old <> [] -> remove_ignore_case old s 0 =
  match find (word_i old) s with Some f => firstn (position f) s ++ remove_ignore_case old (skipn (position f + length (matched f)) s) 0 | None => s end.
Proof.
  intros old s N. induction s as [|c s IH].
  - cbn [remove_ignore_case find]. rewrite word_i_found. destruct old as [|d old]; [contradiction|]. reflexivity.
  - cbn [remove_ignore_case find]. rewrite word_i_found. destruct (HasPrefixIgnoreCase (c :: s) old) eqn:P.
    + cbn [position matched]. rewrite remove_skip. cbn [firstn app plus]. rewrite firstn_length.
      assert (L : length old <= length (c :: s)) by (unfold HasPrefixIgnoreCase in P; apply has_prefix_length in P; unfold to_lower in P; rewrite !map_length in P; auto).
      rewrite Nat.min_l by exact L. destruct old as [|d old]; [contradiction|]. reflexivity.
    + rewrite IH. destruct (find (word_i old) s) as [f|]; [|reflexivity]. cbn [option_map position matched firstn app plus skipn]. reflexivity.
Qed.

(** The removal of a text in any case removes all matches of the expression (?i) with this text. *)
Theorem C72_removal : forall old s, old <> [] -> remove_ignore_case old s 0 = remove_all (word_i old) s.
Proof.
  intros old s N. unfold remove_all. assert (L : length s < S (length s)) by lia. revert L. generalize (S (length s)) as n. intros n. revert s.
  induction n as [|n IH]; intros s L; [lia|]. cbn [remove_all_go]. rewrite remove_find by exact N. destruct (find (word_i old) s) as [f|] eqn:E; [|reflexivity]. f_equal. apply IH.
  assert (G : 0 < length (matched f) /\ 0 < length s).
  { clear - E N. revert f E. induction s as [|c s IH]; intros f E; cbn [find] in E; rewrite word_i_found in E.
    - destruct old as [|d old]; [contradiction|]. discriminate.
    - destruct (HasPrefixIgnoreCase (c :: s) old) eqn:P.
      + injection E as <-. cbn [matched]. split; [|cbn; lia]. destruct old as [|d old]; [contradiction|]. cbn. lia.
      + destruct (find (word_i old) s) as [g|]; [|discriminate]. injection E as <-. cbn [matched]. split; [apply (IH g eq_refl)|cbn; lia]. }
  rewrite skipn_length. lia.
Qed.
Print Assumptions C72_removal.

(** ** Titles of sections *)

Lemma before_last_prefix : forall w s a, before_last w s = Some a -> firstn (length a) s = a /\ length a <= length s.
Proof.
  induction s as [|c s IH]; intros a E; cbn [before_last] in E.
  - destruct (has_prefix w []); [|discriminate]. injection E as <-. auto.
  - destruct (before_last w s) as [b|]; [|destruct (has_prefix w (c :: s)); [|discriminate]; injection E as <-; cbn; split; [auto|lia]].
    injection E as <-. destruct (IH b eq_refl). cbn [length firstn]. split; [congruence|lia].
Qed.

Lemma greedily_last : forall A w s (g : str -> A), greedily (fun _ => true) s (fun x => if has_prefix w x then Some (g x) else None) = option_map (fun a => g (skipn (length a) s)) (before_last w s).
Proof.
  intros A w s g. induction s as [|c s IH]; cbn [greedily before_last].
  - destruct (has_prefix w []); reflexivity.
  - rewrite IH. destruct (before_last w s); [reflexivity|]. cbn [option_map]. destruct (has_prefix w (c :: s)); reflexivity.
Qed.

Lemma before_last_none : forall w s, before_last w s = None <-> index w s = None.
Proof.
  intros w s. induction s as [|c s IH]; cbn [before_last index]; [destruct (has_prefix w []); split; congruence|].
  destruct (before_last w s), (index w s), (has_prefix w (c :: s)); cbn [option_map]; split; try congruence; intros; exfalso; destruct IH as [I J]; (specialize (I eq_refl) || specialize (J eq_refl)); congruence.
Qed.

Definition first_group (o : option found) : option str := match o with Some m => group 1 (groups m) | None => None end.

Lemma title_here : forall s, first_group (match_here headingTitleRegex s) = (if has_prefix !"<h1>" s then before_last !"</h1>" (skipn 4 s) else None) /\
  is_some (match_here headingTitleRegex s) = has_prefix !"<h1>" s && is_some (before_last !"</h1>" (skipn 4 s)).
Proof.
  intros s. rewrite match_run. unfold headingTitleRegex. do 2 step. destruct (has_prefix !"<h1>" s) eqn:P; [|split; reflexivity].
  change (length !"<h1>") with 4. cbn [fst snd]. do 2 step. unfold anything. step. set (y := skipn 4 s).
  rewrite (greedily_ext _ y _ (fun x => if has_prefix !"</h1>" x then Some (mkFound 0 (firstn (length s - length (skipn 5 x)) s) [(1, firstn (length y - length x) y)]) else None)).
  2: { intros x. cbn [fst snd]. do 2 step. destruct (has_prefix !"</h1>" x); [|reflexivity]. step. reflexivity. }
  rewrite greedily_last. destruct (before_last !"</h1>" y) as [a|] eqn:B; [|split; reflexivity]. destruct (before_last_prefix _ _ _ B) as (F & L). cbn [option_map first_group groups group Nat.eqb]. split; [|reflexivity].
  rewrite taken_skipn by exact L. rewrite F. reflexivity.
Qed.

Lemma no_title : forall s, index !"</h1>" s = None -> find headingTitleRegex s = None.
Proof.
  induction s as [|c s IH]; intros I; cbn [find].
  - reflexivity.
  - destruct (title_here (c :: s)) as (_ & H). destruct (match_here headingTitleRegex (c :: s)) eqn:E; [|rewrite IH by (eapply index_none_cons; eauto); reflexivity].
    exfalso. cbn [is_some] in H. symmetry in H. apply andb_true_iff in H as (_ & H). destruct (before_last _ _) eqn:B; [|discriminate].
    assert (N : index !"</h1>" (skipn 4 (c :: s)) = None).
    { apply index_none. intros a b K. rewrite index_none in I. apply (I (firstn 4 (c :: s) ++ a) b). rewrite <- (firstn_skipn 4 (c :: s)) at 1. rewrite K, app_assoc. reflexivity. }
    apply before_last_none in N. congruence.
Qed.

(** The title of a section of the book is the first group of (?s)<h1>(.* )</h1> (without the blank). *)
Theorem C72_titles : forall s, heading_title s = match find headingTitleRegex s with Some m => group 1 (groups m) | None => None end.
Proof.
  intros s. change (heading_title s = first_group (find headingTitleRegex s)). unfold heading_title. induction s as [|c s IH]; [reflexivity|]. cbn [find index]. destruct (title_here (c :: s)) as (G & H).
  destruct (has_prefix !"<h1>" (c :: s)) eqn:P.
  - cbn [plus andb] in *. change (0 + 4) with 4. destruct (match_here headingTitleRegex (c :: s)) as [m|] eqn:E; [symmetry; exact G|]. rewrite <- G. cbn [first_group].
    rewrite no_title; [reflexivity|]. cbn [is_some] in H. apply (index_none_cons _ c). apply index_none. intros a b K.
    assert (N : before_last !"</h1>" (skipn 4 (c :: s)) = None) by (destruct (before_last _ _); [discriminate|auto]). apply before_last_none in N. rewrite index_none in N.
    apply has_prefix_spec in P as (t & P). rewrite P in K, N. change (skipn 4 (!"<h1>" ++ t)) with t in N.
    destruct a as [|a0 [|a1 [|a2 [|a3 a]]]]; try discriminate. injection K as _ _ _ _ K. exact (N a b K).
  - destruct (match_here headingTitleRegex (c :: s)); [discriminate|]. destruct (index !"<h1>" s) as [i|] eqn:I; cbn [option_map].
    + change (skipn (S i + 4) (c :: s)) with (skipn (i + 4) s). rewrite IH. destruct (find headingTitleRegex s); reflexivity.
    + destruct (find headingTitleRegex s); cbn [option_map first_group groups] in *; auto.
Qed.
Print Assumptions C72_titles.

(** ** Tokens *)

Lemma class_eq : forall c, existsb (Ascii.eqb c) !"ABCDEFGHIJKLMNOPQRSTUVWXYZ_0123456789" = token_char c.
Proof. intros [[] [] [] [] [] [] [] []]; vm_compute; reflexivity. Qed.

Lemma greedily_iff : forall A p s (k : str -> option A), is_some (greedily p s k) = true <-> exists a x, s = a ++ x /\ forallb p a = true /\ is_some (k x) = true.
Proof.
  intros A p s k. induction s as [|c s IH]; cbn [greedily].
  - split; [intros H; exists [], []; auto|]. intros (a & x & E & _ & H). destruct a; [|discriminate]. destruct x; [exact H|discriminate].
  - split.
    + intros H. destruct (p c) eqn:P; [|exists [], (c :: s); auto]. destruct (greedily p s k) as [o|] eqn:G; [|exists [], (c :: s); auto].
      destruct (proj1 IH eq_refl) as (a & x & -> & F & K). exists (c :: a), x. cbn [forallb app]. rewrite P. auto.
    + intros (a & x & E & F & K). destruct a as [|d a].
      * cbn [app] in E. subst x. destruct (p c); [|exact K]. destruct (greedily p s k); [reflexivity|exact K].
      * injection E as <- ->. cbn [forallb] in F. apply andb_true_iff in F as (P & F). rewrite P. assert (W : is_some (greedily p (a ++ x) k) = true) by (apply IH; eauto). destruct (greedily p (a ++ x) k); [reflexivity|discriminate].
Qed.

Lemma plus_iff : forall A p s (k : str -> option A), is_some (go (plus true (Char p)) s k) = true <-> exists a x, s = a ++ x /\ a <> [] /\ forallb p a = true /\ is_some (k x) = true.
Proof.
  intros A p s k. unfold plus. do 2 walk. destruct s as [|c s].
  - split; [discriminate|]. intros (a & x & E & N & _). destruct a; [contradiction|discriminate].
  - destruct (p c) eqn:P.
    + walk. rewrite greedily_iff. split.
      * intros (a & x & -> & F & K). exists (c :: a), x. cbn [forallb]. rewrite P. repeat split; auto. discriminate.
      * intros (a & x & E & N & F & K). destruct a as [|d a]; [contradiction|]. injection E as <- ->. cbn [forallb] in F. rewrite P in F. exists a, x. auto.
    + split; [discriminate|]. intros (a & x & E & N & F & K). destruct a as [|d a]; [contradiction|]. injection E as <- ->. cbn [forallb] in F. rewrite P in F. discriminate.
Qed.

(** A text that begins with a token *)
Definition token_form (s rest : str) : Prop :=
  exists a d, s = !"$$TOKEN_" ++ (a ++ !"_" ++ d) ++ !"$$" ++ rest /\ a <> [] /\ forallb token_char a = true /\ d <> [] /\ forallb is_digit d = true.

Lemma word_iff : forall A w s (k : str -> option A), is_some (go (word w) s k) = true <-> exists x, s = w ++ x /\ is_some (k x) = true.
Proof.
  intros A w s k. rewrite go_word. destruct (has_prefix w s) eqn:P.
  - apply has_prefix_spec in P as (x & ->). rewrite prefix_skipn. split; [eauto|]. intros (y & E & K). apply app_inv_head in E. subst. exact K.
  - split; [discriminate|]. intros (x & -> & _). assert (has_prefix w (w ++ x) = true) by (apply has_prefix_spec; eauto). congruence.
Qed.

Lemma forallb_ext' : forall (p q : ascii -> bool) l, (forall c, p c = q c) -> forallb p l = forallb q l.
Proof. intros p q l H. induction l; cbn [forallb]; [auto|]. rewrite H, IHl. auto. Qed.

Lemma token_go : forall A s (k : str -> option A), is_some (go TOKEN_REGEX s k) = true <-> exists rest, token_form s rest /\ is_some (k rest) = true.
Proof.
  intros A s k. unfold TOKEN_REGEX, one_of, digit. rewrite go_cons, word_iff. split.
  - intros (x & -> & H). rewrite go_cons, plus_iff in H. destruct H as (a & y & -> & Na & Fa & H). rewrite go_cons, word_iff in H. destruct H as (z & -> & H).
    rewrite go_cons, plus_iff in H. destruct H as (d & u & -> & Nd & Fd & H). rewrite go_cons, word_iff in H. destruct H as (rest & -> & H). rewrite go_nil in H.
    exists rest. split; [|exact H]. exists a, d. rewrite (forallb_ext' _ token_char a class_eq) in Fa. repeat split; auto. rewrite <- !app_assoc. reflexivity.
  - intros (rest & (a & d & -> & Na & Fa & Nd & Fd) & K). exists ((a ++ !"_" ++ d) ++ !"$$" ++ rest). split; [reflexivity|].
    rewrite go_cons, plus_iff. exists a, (!"_" ++ d ++ !"$$" ++ rest). rewrite (forallb_ext' _ token_char a class_eq). rewrite <- !app_assoc. repeat split; auto.
    rewrite go_cons, word_iff. eexists. split; [reflexivity|]. rewrite go_cons, plus_iff. exists d, (!"$$" ++ rest). repeat split; auto. rewrite go_cons, word_iff. eexists. split; [reflexivity|]. rewrite go_nil. exact K.
Qed.

Lemma span_all : forall p a b, forallb p a = true -> match b with [] => True | c :: _ => p c = false end -> span p (a ++ b) = (a, b).
Proof.
  intros p a b F N. induction a as [|c a IH]; cbn [app].
  - destruct b as [|c b]; [reflexivity|]. cbn [span]. rewrite N. reflexivity.
  - cbn [forallb] in F. apply andb_true_iff in F as (P & F). cbn [span]. rewrite P, IH; auto.
Qed.
Lemma span_fst : forall p s, forallb p (fst (span p s)) = true.
Proof. intros p s. induction s as [|c s IH]; auto. cbn [span]. destruct (p c) eqn:P; auto. destruct (span p s). cbn [fst forallb] in *. rewrite P. auto. Qed.

Lemma forallb_rev : forall (p : ascii -> bool) l, forallb p (rev l) = forallb p l.
Proof. intros p l. induction l as [|c l IH]; auto. cbn [rev]. rewrite forallb_app, IH. cbn [forallb]. rewrite andb_true_r. apply andb_comm. Qed.

Lemma middle_iff : forall m, token_middle m = true <-> exists a d, m = a ++ !"_" ++ d /\ a <> [] /\ forallb token_char a = true /\ d <> [] /\ forallb is_digit d = true.
Proof.
  intros m. unfold token_middle. split.
  - destruct (span is_digit (rev m)) as [digits before] eqn:S. destruct digits as [|d digits]; [discriminate|]. destruct before as [|u [|c name]]; try discriminate.
    intros H. apply andb_true_iff in H as (U & F). apply Ascii.eqb_eq in U. subst u. pose proof (span_parts is_digit (rev m)) as E. pose proof (span_fst is_digit (rev m)) as G. rewrite S in E, G. cbn [fst snd] in E, G.
    exists (rev (c :: name)), (rev (d :: digits)). rewrite !forallb_rev. repeat split; auto; try (intros K; apply (f_equal (@rev ascii)) in K; rewrite rev_involutive in K; discriminate).
    rewrite <- (rev_involutive m), <- E, rev_app_distr. change (rev ("_"%char :: c :: name)) with (rev (c :: name) ++ !"_"). rewrite <- app_assoc. reflexivity.
  - intros (a & d & -> & Na & Fa & Nd & Fd). rewrite !rev_app_distr. change (rev !"_") with !"_". rewrite <- app_assoc. rewrite span_all; [|rewrite forallb_rev; auto|reflexivity].
    destruct (rev d) as [|d0 d'] eqn:D; [apply (f_equal (@rev ascii)) in D; rewrite rev_involutive in D; subst; contradiction|]. cbn [app].
    destruct (rev a) as [|a0 a'] eqn:A; [apply (f_equal (@rev ascii)) in A; rewrite rev_involutive in A; subst; contradiction|]. rewrite <- A, forallb_rev. exact Fa.
Qed.

Lemma digit_token : forall c, is_digit c = true -> token_char c = true.
Proof. intros c H. unfold token_char. rewrite H. reflexivity. Qed.

Lemma here_iff : forall s, token_here s = true <-> exists rest, token_form s rest.
Proof.
  intros s. unfold token_here. split.
  - intros H. apply andb_true_iff in H as (P & H). apply has_prefix_spec in P as (t & ->). change (skipn 8 (!"$$TOKEN_" ++ t)) with t in H. pose proof (span_parts token_char t) as E. destruct (span token_char t) as [m rest]. cbn [fst snd] in E.
    apply andb_true_iff in H as (M & Q). apply has_prefix_spec in Q as (u & ->). apply middle_iff in M as (a & d & -> & M). exists u, a, d. split; [rewrite <- E; reflexivity|exact M].
  - intros (rest & a & d & -> & Na & Fa & Nd & Fd). apply andb_true_iff. split; [apply has_prefix_spec; eauto|]. change (skipn 8 (!"$$TOKEN_" ++ ?t)) with t.
    rewrite span_all; [|rewrite !forallb_app, Fa; cbn [forallb andb]; apply forallb_forall; intros c I; apply digit_token; rewrite forallb_forall in Fd; auto|reflexivity].
    apply andb_true_iff. split; [apply middle_iff; exists a, d; auto|apply has_prefix_spec; eauto].
Qed.

Lemma some_true : forall a b : bool, (a = true <-> b = true) -> a = b.
Proof. intros [] [] H; auto; [symmetry|]; apply H; auto. Qed.

(** A text has a token if the expression of tokens is found in it. *)
Theorem C72_tokens : forall s, has_token s = is_some (find TOKEN_REGEX s).
Proof.
  assert (H : forall s, is_some (match_here TOKEN_REGEX s) = token_here s).
  { intros s. rewrite some_go. apply some_true. rewrite token_go, here_iff. split; intros (rest & F); [exists rest; apply F|exists rest; auto]. }
  induction s as [|c s IH]; rewrite (find_some _ _ H); [reflexivity|]. rewrite <- IH. reflexivity.
Qed.
Print Assumptions C72_tokens.

(** A line is a token if the expression between ^ and $ matches it. *)
Theorem C72_token_lines : forall s, is_token_line s = is_some (match_here TOKEN_LINE_REGEX s).
Proof.
  intros s. rewrite some_go. apply some_true. unfold TOKEN_LINE_REGEX. rewrite go_cons, token_go. unfold is_token_line. split.
  - intros H. apply andb_true_iff in H as (H & M). apply andb_true_iff in H as (P & Q). apply has_prefix_spec in P as (t & ->). change (skipn 8 (!"$$TOKEN_" ++ t)) with t in *. apply has_suffix_spec in Q as (m & ->).
    exists []. split; [|reflexivity]. rewrite app_length, app_length in M. change (length !"$$TOKEN_") with 8 in M. change (length !"$$") with 2 in M. replace (8 + (length m + 2) - 10) with (length m) in M by lia. rewrite firstn_app, firstn_all, Nat.sub_diag, firstn_O, app_nil_r in M.
    apply middle_iff in M as (a & d & -> & M). exists a, d. split; [rewrite !app_nil_r; reflexivity|exact M].
  - intros (rest & (a & d & -> & M) & K). rewrite go_cons, go_end in K. destruct rest; [|discriminate]. rewrite app_nil_r.
    match goal with |- context [skipn 8 (!"$$TOKEN_" ++ ?t)] => change (skipn 8 (!"$$TOKEN_" ++ t)) with t end.
    apply andb_true_iff. split; [apply andb_true_iff; split; [apply has_prefix_spec; eauto|apply has_suffix_spec; eauto]|].
    set (m := a ++ !"_" ++ d). rewrite app_length, (app_length m). change (length !"$$TOKEN_") with 8. change (length !"$$") with 2. replace (8 + (length m + 2) - 10) with (length m) by lia. rewrite firstn_app, firstn_all, Nat.sub_diag, firstn_O, app_nil_r.
    apply middle_iff. exists a, d. auto.
Qed.
Print Assumptions C72_token_lines.

(** ** Names of templates *)

Definition name_from (x : str) : option str := match take_while name_char x with [] => None | n => Some n end.

Lemma take_while_ext : forall p q s, (forall c, p c = q c) -> take_while p s = take_while q s.
Proof. intros p q s H. induction s as [|c s IH]; cbn [take_while]; [auto|]. rewrite H, IH. auto. Qed.
Lemma take_while_span : forall p s, take_while p s = fst (span p s).
Proof. intros p s. induction s as [|c s IH]; cbn [take_while span]; [auto|]. destruct (p c); [|auto]. rewrite IH. destruct (span p s); auto. Qed.
Lemma name_class : forall c, negb (existsb (Ascii.eqb c) (nl ++ !"|}")) = name_char c.
Proof. intros [[] [] [] [] [] [] [] []]; vm_compute; reflexivity. Qed.
Lemma re_space_class : forall c, existsb (Ascii.eqb c) [" "%char; "009"%char; "010"%char; "012"%char; "013"%char] = re_space c.
Proof. intros [[] [] [] [] [] [] [] []]; vm_compute; reflexivity. Qed.
Lemma space_name : forall c, re_space c = true -> name_char c = negb (Ascii.eqb c nl_char).
Proof. intros [[] [] [] [] [] [] [] []]; vm_compute; auto. Qed.
Lemma space_trimmed : forall c, re_space c = true -> trim_space (to_lower [c]) = [].
Proof. intros [[] [] [] [] [] [] [] []]; vm_compute; (reflexivity || discriminate). Qed.

Lemma greedily_ext_class : forall A p q s (k : str -> option A), (forall c, p c = q c) -> greedily p s k = greedily q s k.
Proof. intros A p q s k H. induction s as [|c s IH]; cbn [greedily]; [auto|]. rewrite H, IH. auto. Qed.

Lemma names_blank : forall s, existsb (fun c => negb (Ascii.eqb c nl_char)) (take_while re_space s) = false -> take_while name_char (drop_while re_space s) = [] -> take_while name_char s = [].
Proof.
  intros [|c s] E D; [auto|]. cbn [take_while drop_while] in *. destruct (re_space c) eqn:R; [|exact D]. cbn [existsb] in E. apply orb_false_iff in E as (E & _).
  rewrite (space_name c R), E. reflexivity.
Qed.

Lemma names_greedy : forall s, match take_while name_char (drop_while re_space s) with
  | [] => if existsb (fun c => negb (Ascii.eqb c nl_char)) (take_while re_space s) then exists w, re_space w = true /\ greedily re_space s name_from = Some [w] else greedily re_space s name_from = None
  | n => greedily re_space s name_from = Some n end.
Proof.
  induction s as [|c s IH]; [reflexivity|]. cbn [greedily]. pose proof (names_blank s) as B. cbn [drop_while take_while]. destruct (re_space c) eqn:R.
  - destruct (take_while name_char (drop_while re_space s)) as [|n0 n]; [|rewrite IH; reflexivity]. cbn [existsb].
    destruct (existsb _ (take_while re_space s)).
    + rewrite orb_true_r. destruct IH as (w & W & G). exists w. rewrite G. auto.
    + rewrite orb_false_r, IH. unfold name_from. cbn [take_while]. rewrite (space_name c R), B by auto. destruct (Ascii.eqb c nl_char); cbn [negb]; [reflexivity|]. exists c. auto.
  - unfold name_from. destruct (take_while name_char (c :: s)); reflexivity.
Qed.

Lemma name_here : forall s, first_group (match_here templateNameRegex s) = (if has_prefix !"{{" s then greedily re_space (skipn 2 s) name_from else None) /\
  is_some (match_here templateNameRegex s) = is_some (first_group (match_here templateNameRegex s)).
Proof.
  intros s. assert (G : match_here templateNameRegex s = if has_prefix !"{{" s then greedily re_space (skipn 2 s) (fun x => match take_while name_char x with [] => None | n => Some (mkFound 0 (firstn (length s - length (snd (span name_char x))) s) [(1, n)]) end) else None).
  { rewrite match_run. unfold templateNameRegex. do 2 step. destruct (has_prefix !"{{" s); [|reflexivity]. change (length !"{{") with 2. cbn [fst snd]. step. unfold space, one_of. step. rewrite (greedily_ext_class _ _ _ _ _ re_space_class).
    apply greedily_ext. intros x. cbn [fst snd]. do 2 step. unfold plus, none_of. do 2 step. destruct x as [|c x]; [reflexivity|]. cbn [take_while span]. rewrite name_class. destruct (name_char c) eqn:P; [|reflexivity].
    cbn [fst snd]. step. rewrite (greedily_ext_class _ _ _ _ _ name_class).
    erewrite greedily_span; [|intros y; cbn [fst snd]; step; reflexivity]. rewrite take_while_span. pose proof (span_parts name_char x) as E. destruct (span name_char x) as [a b]. cbn [fst snd app] in *. subst x.
    change (c :: a ++ b) with ((c :: a) ++ b). rewrite taken. reflexivity. }
  rewrite G. destruct (has_prefix !"{{" s); [|split; reflexivity]. generalize (skipn 2 s) as y. intros y. 
  assert (Q : forall k : str -> str -> found, (forall n x, groups (k n x) = [(1, n)]) -> let o := greedily re_space y (fun x => match take_while name_char x with [] => None | n => Some (k n x) end) in
    first_group o = greedily re_space y name_from /\ is_some o = is_some (first_group o)).
  { intros k K. cbn zeta. induction y as [|c y IH]; cbn [greedily]; [split; reflexivity|]. unfold name_from at 2.
    assert (F : forall v : str, let o := match take_while name_char v with [] => None | n => Some (k n v) end in first_group o = name_from v /\ is_some o = is_some (first_group o)).
    { intros v. unfold name_from. destruct (take_while name_char v) as [|n0 n]; [split; reflexivity|]. cbn [first_group]. rewrite K. split; reflexivity. }
    specialize (F (c :: y)). cbn zeta in F. unfold name_from in F. destruct (re_space c); [|exact F]. destruct IH as (I & J). rewrite <- I.
    destruct (greedily re_space y (fun x => match take_while name_char x with [] => None | n => Some (k n x) end)) as [o|]; cbn [first_group] in *; [|exact F].
    cbn [is_some] in J. destruct (group 1 (groups o)); [split; reflexivity|discriminate]. }
  apply (Q (fun n x => mkFound 0 (firstn (length s - length (snd (span name_char x))) s) [(1, n)])). reflexivity.
Qed.

(** The name of a template is the first group of {{\s*([^\n|}]+) once it is in lower case and without white space around it. *)
Theorem C72_template_names : forall s, option_map (fun n => trim_space (to_lower n)) (template_name s) =
  match find templateNameRegex s with Some m => option_map (fun n => trim_space (to_lower n)) (group 1 (groups m)) | None => None end.
Proof.
  set (T := fun n => trim_space (to_lower n)).
  assert (H : forall s, option_map T (template_name_at s) = option_map T (first_group (match_here templateNameRegex s))).
  { intros s. rewrite (proj1 (name_here s)). unfold template_name_at. destruct (has_prefix !"{{" s); [|reflexivity]. pose proof (names_greedy (skipn 2 s)) as G.
    destruct (take_while name_char (drop_while re_space (skipn 2 s))) as [|n0 n]; [|rewrite G; reflexivity].
    destruct (existsb _ _); [|rewrite G; reflexivity]. destruct G as (w & W & ->). cbn [option_map]. unfold T. rewrite (space_trimmed w W). reflexivity. }
  intros s. assert (E : option_map T (template_name s) = option_map T (first_group (find templateNameRegex s))).
  { induction s as [|c s IH]; cbn [template_name find]; pose proof (H (c :: s)) as Hc || pose proof (H []) as Hc.
    - reflexivity.
    - destruct (name_here (c :: s)) as (_ & S). destruct (match_here templateNameRegex (c :: s)) as [m|]; cbn [first_group is_some] in *.
      + destruct (group 1 (groups m)) as [g|]; [|discriminate]. destruct (template_name_at (c :: s)) as [n|]; [exact Hc|discriminate].
      + destruct (template_name_at (c :: s)) as [n|]; [discriminate|]. rewrite IH. destruct (find templateNameRegex s); reflexivity. }
  rewrite E. destruct (find templateNameRegex s); reflexivity.
Qed.
Print Assumptions C72_template_names.

(** ** Examples *)

Example C72_example_cells :
  find_align (!"style='text-align:right; text-align:left;'") = Some !"text-align:right;" /\
  option_map matched (find tableTextAlignRegex !"style='text-align:right; text-align:left;'") = Some !"text-align:right;" /\
  map matched (find_all tableRowAndColspanRegex (!"colspan=2 rowspan=" ++ dq ++ !"13" ++ dq ++ !" colspan=x")) = [!"colspan=2"; !"rowspan=" ++ dq ++ !"13" ++ dq] /\
  option_map groups (match_here tableStartRegex !"::{| class=wikitable") = Some [(2, !"{| class=wikitable"); (1, !"::")].
Proof. vm_compute. repeat split. Qed.

Example C72_example_math : map (fun f => (position f, matched f, group 1 (groups f))) (find_all mathRegex !"a <math>x</math> b <math display=block>y>z</math></math>") =
  [(2, !"<math>x</math>", Some !"x"); (3, !"<math display=block>y>z</math>", Some !"y>z")].
Proof. vm_compute. reflexivity. Qed.

Example C72_example_texts :
  option_map groups (find templateNameRegex (!"a{{ " ++ nl ++ !" Infobox City" ++ nl ++ !"|x}}")) = Some [(1, !"Infobox City")] /\
  option_map groups (find templateNameRegex (!"{{ " ++ nl ++ !"|x}}")) = Some [(1, !" ")] /\
  option_map (fun m => (position m, matched m)) (find internalLinkStartRegex !"[[a]] [[File:b:c.jpg]]") = Some (6, !"[[File:") /\
  option_map groups (find headingTitleRegex !"<h1>a</h1><h1>b</h1>") = Some [(1, !"a</h1><h1>b")] /\
  remove_all (word_i !"<BR>") !"a<br>b<Br>c" = !"abc" /\
  is_some (find TOKEN_REGEX !"a $$TOKEN_TABLE_ROW_12$$ b") = true /\ is_some (find TOKEN_REGEX !"a $$TOKEN_12$$ b") = false /\
  is_some (match_here TOKEN_LINE_REGEX !"$$TOKEN_TABLE_12$$") = true /\ is_some (match_here TOKEN_LINE_REGEX !"$$TOKEN_TABLE_12$$ ") = false /\
  is_some (find referencePlaceholderShortRegex !"x <References group=a / >") = true /\ is_some (find referencePlaceholderEndRegex !"</references >") = true /\
  option_map matched (match_here galleryStartRegex !"<Gallery mode=packed>File:a.jpg>") = Some !"<Gallery mode=packed>".
Proof. vm_compute. repeat split. Qed.

(** ** What an expression matches, in any order of preference *)

Lemma reads_suffix : forall r s t, reads r s t -> exists w, s = w ++ t.
Proof.
  intros r s t H. induction H; try (exists []; reflexivity); auto.
  - exists [c]. reflexivity.
  - destruct IHreads1 as (w & ->), IHreads2 as (v & ->). exists (w ++ v). rewrite app_assoc. reflexivity.
  - destruct IHreads1 as (w & ->), IHreads2 as (v & ->). exists (w ++ v). rewrite app_assoc. reflexivity.
Qed.

Lemma repeated_sound : forall g a f, (forall s x, In x (f s) -> reads a s (fst x)) -> forall n s x, In x (repeated g f n s) -> reads (Star g a) s (fst x).
Proof.
  intros g a f H. induction n as [|n IH]; intros s x I; cbn [repeated] in I.
  - destruct g; destruct I as [<-|[]]; constructor.
  - assert (M : In x (flat_map (fun y => if length (fst y) <? length s then andthen y (repeated g f n (fst y)) else []) (f s)) -> reads (Star g a) s (fst x)).
    { intros J. apply in_flat_map in J as (y & Y & J). destruct (_ <? _); [|destruct J]. unfold andthen in J. apply in_map_iff in J as (z & <- & Z). cbn [fst]. apply (reads_more _ _ _ (fst y)); [apply H; auto|apply IH; auto]. }
    destruct g; [apply in_app_or in I as [I|[<-|[]]]|destruct I as [<-|I]]; auto; constructor.
Qed.

Lemma repeated_complete : forall r s t, reads r s t -> forall g a, r = Star g a -> (forall s t, reads a s t -> exists l, In (t, l) (results a s)) -> forall n, length s <= n -> exists l, In (t, l) (repeated g (results a) n s).
Proof.
  intros r s t H. induction H; intros g' a' E C; try discriminate; injection E as -> ->; intros n L.
  - exists []. destruct n, g'; cbn [repeated]; try (left; reflexivity); apply in_or_app; right; left; reflexivity.
  - destruct (reads_suffix _ _ _ H) as (w & ->). destruct w as [|c w]; [apply (IHreads2 g' a'); auto|].
    rewrite app_length in L. cbn [length] in L. destruct n as [|n]; [lia|]. destruct (IHreads2 g' a' eq_refl C n ltac:(lia)) as (l & I). destruct (C _ _ H) as (l' & I'). exists (l ++ l'). cbn [repeated].
    assert (M : In (u, l ++ l') (flat_map (fun x => if length (fst x) <? length ((c :: w) ++ t) then andthen x (repeated g' (results a') n (fst x)) else []) (results a' ((c :: w) ++ t)))).
    { apply in_flat_map. exists (t, l'). split; [exact I'|]. cbn [fst]. replace (length t <? length ((c :: w) ++ t)) with true by (symmetry; apply Nat.ltb_lt; rewrite app_length; cbn [length]; lia).
      unfold andthen. apply in_map_iff. exists (u, l). auto. }
    destruct g'; [apply in_or_app; auto|right; exact M].
Qed.

(** The list of matches has exactly what the expression can read: it differs only in the order of preference. *)
Theorem C72_semantics : forall r s t, reads r s t <-> exists l, In (t, l) (results r s).
Proof.
  assert (S : forall r s x, In x (results r s) -> reads r s (fst x)).
  { induction r; intros s x I; cbn [results] in I.
    - destruct I as [<-|[]]. constructor.
    - destruct s as [|c s]; [destruct I|]. destruct (p c) eqn:P; [|destruct I]. destruct I as [<-|[]]. constructor. exact P.
    - apply in_flat_map in I as (y & Y & I). unfold andthen in I. apply in_map_iff in I as (z & <- & Z). cbn [fst]. eapply reads_seq; eauto.
    - apply in_app_or in I as [I|I]; [apply reads_left|apply reads_right]; auto.
    - eapply repeated_sound; eauto.
    - apply in_map_iff in I as (y & <- & Y). cbn [fst]. constructor. auto.
    - destruct s; [|destruct I]. destruct I as [<-|[]]. constructor. }
  assert (C : forall r s t, reads r s t -> exists l, In (t, l) (results r s)).
  { induction r; intros s t H.
    - inversion H; subst. exists []. left. reflexivity.
    - inversion H; subst. exists []. cbn [results]. rewrite H1. left. reflexivity.
    - inversion H; subst. destruct (IHr1 _ _ H2) as (l & I), (IHr2 _ _ H5) as (l' & I'). exists (l' ++ l). cbn [results]. apply in_flat_map. eexists. split; [exact I|]. unfold andthen. apply in_map_iff. eexists. split; [|exact I']. reflexivity.
    - inversion H; subst; [destruct (IHr1 _ _ H4) as (l & I)|destruct (IHr2 _ _ H4) as (l & I)]; exists l; cbn [results]; apply in_or_app; auto.
    - eapply repeated_complete; eauto.
    - inversion H; subst. destruct (IHr _ _ H4) as (l & I). eexists. cbn [results]. apply in_map_iff. eexists. split; [|exact I]. reflexivity.
    - inversion H; subst. exists []. left. reflexivity. }
  intros r s t. split; [apply C|]. intros (l & I). apply (S r s (t, l) I).
Qed.
Print Assumptions C72_semantics.
