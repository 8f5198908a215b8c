(** * Lines that are deleted in place: lemmas for C75 *)

From Coq Require Import Ascii String.
From Coq Require Import List Arith Bool Lia.
From Verif Require Import GoStr UtilModel ConfigModel TokenModel ImageModel SliceModel SliceProofs SliceLineModel.
Import ListNotations.
Local Open Scope list_scope.

Section Lines.
Variable cfg : configuration.
Variable room : heap str -> slice -> list str -> list str.

Lemma proper_len : forall (h : heap str) s, proper h s -> length (view h s) = len s.
Proof. intros h s [_ P]. unfold view. rewrite firstn_length. lia. Qed.

Lemma delete_spec : forall h lines pre x rest h' lines', proper h lines -> view h lines = pre ++ x :: rest -> delete_line room h lines (length pre) = (h', lines') ->
  proper h' lines' /\ view h' lines' = pre ++ rest.
Proof.
  intros h lines pre x rest h' lines' P V E. unfold delete_line in E. pose proof (proper_len _ _ P) as L. rewrite V, app_length in L. cbn [length] in L.
  assert (Pb : proper h (mkSlice (base lines) (length pre))) by (destruct P as [P1 P2]; split; [exact P1|]; unfold block in *; cbn [base len] in *; lia).
  destruct (append_spec room _ _ _ _ _ Pb E) as (_ & P' & V' & _). split; auto. rewrite V', V.
  replace (view h (mkSlice (base lines) (length pre))) with (firstn (length pre) (view h lines)) by (unfold view, block; cbn [base len]; rewrite firstn_firstn; f_equal; lia).
  rewrite V, firstn_length_app. f_equal. replace (pre ++ x :: rest) with ((pre ++ [x]) ++ rest) by (rewrite <- app_assoc; reflexivity).
  replace (S (length pre)) with (length (pre ++ [x])) by (rewrite app_length; cbn [length]; lia). rewrite skipn_app, skipn_all, Nat.sub_diag. reflexivity.
Qed.

Lemma write_spec : forall h lines pre x rest y, proper h lines -> view h lines = pre ++ x :: rest ->
  proper (write_line h lines (length pre) y) lines /\ view (write_line h lines (length pre) y) lines = (pre ++ [y]) ++ rest.
Proof.
  intros h lines pre x rest y [P1 P2] V. unfold write_line. set (a := block h lines) in *. pose proof (firstn_skipn (len lines) a) as S. unfold view in V. fold a in V.
  assert (L : len lines = length (pre ++ x :: rest)) by (rewrite <- V, firstn_length; lia). rewrite V in S.
  assert (O : overwrite (length pre) [y] a = (pre ++ y :: rest) ++ skipn (len lines) a).
  { unfold overwrite. rewrite <- S at 1 2. rewrite <- !app_assoc, firstn_length_app. cbn [app length]. f_equal. f_equal.
    rewrite skipn_app. rewrite (skipn_all2 pre) by lia. replace (length pre + 1 - length pre) with 1 by lia. reflexivity. }
  assert (B : block (set_block h (base lines) (overwrite (length pre) [y] a)) lines = (pre ++ y :: rest) ++ skipn (len lines) a) by (unfold block; rewrite set_same by auto; exact O).
  assert (L' : len lines = length (pre ++ y :: rest)) by (rewrite L, !app_length; reflexivity).
  split.
  - split; [rewrite set_length; auto|]. rewrite B, app_length. lia.
  - unfold view. rewrite B, L', firstn_length_app, <- app_assoc. reflexivity.
Qed.

(** The result in memory is that of the recursion. *)
Definition same_lines (pre : list str) (m : res ((heap str * slice) * Tokenizer)) (v : res (list str * Tokenizer)) : Prop :=
  match v with
  | Ok (r, t) => exists h l, m = Ok ((h, l), t) /\ view h l = pre ++ r
  | Err => m = Err
  | Panic => m = Panic
  | OutOfFuel => m = OutOfFuel
  end.

Lemma maps_agree : forall fuel pre rest h lines within t, length rest < fuel -> proper h lines -> view h lines = pre ++ rest ->
  same_lines pre (parseImageMaps_mem cfg room fuel h lines (length pre) within t) (parseImageMaps_go cfg rest within t).
Proof.
  induction fuel as [|fuel IH]; intros pre rest h lines within t F P V; [lia|]. pose proof (proper_len _ _ P) as L. rewrite V, app_length in L.
  cbn [parseImageMaps_mem]. destruct rest as [|line rest]; cbn [length] in *.
  - replace (length pre <? len lines) with false by (symmetry; apply Nat.ltb_ge; lia). cbn [parseImageMaps_go]. eexists _, _. split; [reflexivity|exact V].
  - replace (length pre <? len lines) with true by (symmetry; apply Nat.ltb_lt; lia). rewrite V, nth_error_app2, Nat.sub_diag by lia. cbn [nth_error parseImageMaps_go].
    destruct (within || EqualsIgnoreCase line !"</imagemap>") eqn:W.
    + destruct (delete_line room h lines (length pre)) as [h' lines'] eqn:D. destruct (delete_spec _ _ _ _ _ _ _ P V D) as [P' V'].
      replace (if EqualsIgnoreCase line !"</imagemap>" then false else within) with (within && negb (EqualsIgnoreCase line !"</imagemap>"))
        by (destruct within, (EqualsIgnoreCase line !"</imagemap>"); reflexivity).
      apply IH; auto. lia.
    + assert (WF : within = false) by (destruct within; [discriminate|reflexivity]). subst within.
      assert (WRITE : forall h lines x rest image t, length rest < fuel -> proper h lines -> view h lines = pre ++ x :: rest ->
        same_lines pre (parseImageMaps_mem cfg room fuel (write_line h lines (length pre) (!"[[" ++ image ++ !"]]")) lines (S (length pre)) true t)
          ((do! r := parseImageMaps_go cfg rest true in ret ((!"[[" ++ image ++ !"]]") :: r)) t)).
      { clear - IH. intros h lines x rest image t F P V. destruct (write_spec _ _ _ _ _ (!"[[" ++ image ++ !"]]") P V) as [P' V'].
        pose proof (IH (pre ++ [!"[[" ++ image ++ !"]]"]) rest _ lines true t F P' V') as H. rewrite app_length in H. cbn [length] in H. rewrite Nat.add_1_r in H.
        unfold bindM, bind. destruct (parseImageMaps_go cfg rest true t) as [[r t']| | |]; cbn [same_lines] in *; auto. destruct H as (h' & l' & -> & V2). unfold ret. eexists _, _. split; [reflexivity|].
        rewrite V2, <- app_assoc. reflexivity. }
      destruct (remove_start_tag !"<imagemap" line) as [l|].
      * destruct (trim_space l) as [|c u].
        -- destruct (delete_line room h lines (length pre)) as [h' lines'] eqn:D. destruct (delete_spec _ _ _ _ _ _ _ P V D) as [P' V']. rewrite V', nth_error_app2, Nat.sub_diag by lia.
           destruct rest as [|next rest]; cbn [nth_error]; [reflexivity|]. unfold bindM at 1 2, bind at 1 2. destruct (escapeImages cfg next t) as [[image t']| | |]; try reflexivity.
           cbn [length] in F. apply (WRITE h' lines' next rest image t'); auto. lia.
        -- unfold bindM at 1 2, bind at 1 2. destruct (escapeImages cfg (c :: u) t) as [[image t']| | |]; try reflexivity. apply (WRITE h lines line rest image t'); auto. lia.
      * assert (V2 : view h lines = (pre ++ [line]) ++ rest) by (rewrite V, <- app_assoc; reflexivity).
        pose proof (IH (pre ++ [line]) rest h lines false t ltac:(lia) P V2) as H. rewrite app_length in H. cbn [length] in H. rewrite Nat.add_1_r in H.
        unfold bindM, bind. destruct (parseImageMaps_go cfg rest false t) as [[r t']| | |]; cbn [same_lines] in *; auto. destruct H as (h' & l' & -> & V3). unfold ret. eexists _, _. split; [reflexivity|].
        rewrite V3, <- app_assoc. reflexivity.
Qed.

Theorem image_maps_agree : forall h content t, image_maps_mem cfg room h content t = parseImageMaps cfg content t.
Proof.
  intros h content t. unfold image_maps_mem, parseImageMaps. destruct (allocate room h (split nl content)) as [h1 lines] eqn:A. apply allocate_spec in A as (_ & P & V & _ & L).
  pose proof (maps_agree (S (len lines)) [] (split nl content) h1 lines false t ltac:(lia) P V) as H. cbn [length] in H. unfold bindM, bind.
  destruct (parseImageMaps_go cfg (split nl content) false t) as [[r t']| | |]; cbn [same_lines] in H; [|rewrite H; reflexivity..]. destruct H as (h' & l' & -> & ->). reflexivity.
Qed.
End Lines.
