(** * Lists (C23) *)

From Coq Require Import Ascii String.
From Coq Require Import List Arith ZArith Bool Lia.
From Verif Require Import GoStr GoStrFacts TrimFacts ConfigModel TokenModel ListModel TokenizerModel.
From Verif Require Import TokenSpec PassSpec ListSpec TokenProofs RefineProofs HeadingProofs ListProofs PropPasses.
Import ListNotations.
Local Open Scope list_scope.

(** Every line of a list is exactly one item (or the two items of a description), nested as its list characters say, in the order of the
    lines; all other lines stay as they are. *)
Theorem C23_lists : forall cfg fuel text result t t', unique t ->
  parseLists (tokenizeContent cfg fuel) text t = Ok (result, t') ->
  lists_parsed (parsed_as (tokenizeContent cfg fuel) t') (tokenMap t') (split nl text) (split nl result).
Proof.
  intros cfg fuel text result t t' U E. destruct (parseLists_found _ (runs cfg fuel) text t (ok_false t U) result t' E) as ((U' & _) & _ & F).
  induction F as [|line lines result' N F IH|ll key l lines result' Ne Fl I (es & F1 & C) K F IH]; [constructor|constructor; auto|]. apply (a_list _ _ ll key l); auto.
  - apply In_key; auto.
  - exists es. split; auto. eapply Forall2_lines_mono; [|exact F1]. intros a b P. apply parsed_spec; auto.
Qed.
Print Assumptions C23_lists.

(** Lists of any size and any depth are parsed with the fuel of the model, that is, in finitely many steps. *)
Theorem C23_terminates : forall rec : str -> M str, (forall text t, rec text t <> OutOfFuel) -> forall text t, parseLists rec text t <> OutOfFuel.
Proof. intros rec R text. apply parseLists_ends. exact R. Qed.
Print Assumptions C23_terminates.

(** A list with sub-lists, a level that is skipped and a description *)
Example C23_example : exists key result t' l,
  parseLists (tokenizeContent default_config 3) (!"a" ++ nl ++ !"* b" ++ nl ++ !"**# c" ++ nl ++ !"*; d: e" ++ nl ++ !"f") NewTokenizer = Ok (result, t') /\
  result = !"a" ++ nl ++ key ++ nl ++ !"f" /\ lookup_token key (tokenMap t') = Some (ListTokenOf l) /\
  list_entries [] l = [mkEntry [Unordered] NORMAL_ITEM !" b"; mkEntry [Unordered; Unordered] NORMAL_ITEM []; mkEntry [Unordered; Unordered; Ordered] NORMAL_ITEM !" c";
                       mkEntry [Unordered; Description] DESCRIPTION_HEAD !" d"; mkEntry [Unordered; Description] DESCRIPTION_ITEM !" e"].
Proof.
  destruct (parseLists (tokenizeContent default_config 3) (!"a" ++ nl ++ !"* b" ++ nl ++ !"**# c" ++ nl ++ !"*; d: e" ++ nl ++ !"f") NewTokenizer) as [[r t']| | |] eqn:E; try (vm_compute in E; discriminate).
  exists (firstn (length r - 4) (skipn 2 r)), r, t'.
  destruct (lookup_token (firstn (length r - 4) (skipn 2 r)) (tokenMap t')) as [v|] eqn:L.
  - vm_compute in E. injection E as <- <-. vm_compute in L. injection L as <-. eexists. repeat split; vm_compute; reflexivity.
  - vm_compute in E. injection E as <- <-. vm_compute in L. discriminate.
Qed.
