(** * Proofs: the encoder writes JSON objects *)

From Coq Require Import Ascii String.
From Coq Require Import List Arith NArith ZArith Bool Lia Permutation.
From Verif Require Import GoStr GoStrFacts StatsModel StatsSpec UnicodeProofs JsonSpec StatsJsonModel JsonProofs JsonDecodeProofs.
Import ListNotations.
Local Open Scope list_scope.

(** ** Objects *)

(** The text of a value, wherever it is *)
Definition value_says (text : str) (v : json) : Prop := forall w r, Forall blank w -> ends_number r -> reads_value (w ++ text ++ r) v r.

Lemma string_says : forall s, value_says (json_string s) (JString (runes s)).
Proof.
  intros s w r W _. unfold json_string. change dq with [quote]. rewrite <- !app_assoc. cbn [app]. eapply value_string; [apply blanks_some; [exact W|cbn; intuition discriminate]|]. apply any_string_reads.
Qed.

Lemma number_says : forall n, value_says (itoa n) (JNumber (itoa n)).
Proof.
  intros n w r W E. eapply value_number; [|apply itoa_number|exact E]. apply blanks_some; auto. pose proof (itoa_whole n) as (D & N & _). destruct (itoa n) as [|c s]; [contradiction|]. cbn [app no_blank].
  inversion D as [|? ? D1 D2]; subst. unfold digit in D1. cbn. intuition lia.
Qed.

Lemma null_says : value_says !"null" JNull.
Proof. intros w r W E. apply (value_word _ !"null"); [|cbn; auto]. apply blanks_some; auto. cbn. intuition discriminate. Qed.

Definition member_says (m : str * str) (j : list N * json) : Prop := fst j = runes (fst m) /\ value_says (snd m) (snd j).

Lemma members_read : forall depth ms js w r, ms <> [] -> Forall2 member_says ms js -> Forall blank w ->
  reads_members (w ++ join (!"," ++ nl) (map (fun m => indentation (S depth) ++ json_string (fst m) ++ !": " ++ snd m) ms) ++ nl ++ indentation depth ++ !"}" ++ r) js r.
Proof.
  intros depth ms js w r N F. revert w N. induction F as [|[k v] [key j] ms js [F1 F3] F IH]; intros w N W; [contradiction|]. cbn [fst snd] in *. subst key.
  assert (K : forall rest, blanks (w ++ (indentation (S depth) ++ json_string k ++ !": " ++ v) ++ rest) (quote :: concat (map escape (characters k)) ++ quote :: !": " ++ v ++ rest)).
  { intros rest. replace (w ++ (indentation (S depth) ++ json_string k ++ !": " ++ v) ++ rest) with ((w ++ indentation (S depth)) ++ quote :: concat (map escape (characters k)) ++ quote :: !": " ++ v ++ rest).
    - apply blanks_some; [apply Forall_app; split; [exact W|apply indentation_blank]|cbn; intuition discriminate].
    - unfold json_string. change dq with [quote]. repeat rewrite <- app_assoc. cbn [app]. repeat rewrite <- app_assoc. reflexivity. }
  assert (V : forall rest, ends_number rest -> reads_value (!" " ++ v ++ rest) j rest) by (intros rest E; apply (F3 !" "); [constructor; [cbn; auto|constructor]|exact E]).
  destruct ms as [|m2 ms].
  - inversion F; subst. cbn [map join]. eapply member_last; [apply K|apply any_string_reads|apply blanks_none; cbn; intuition discriminate|apply (V (nl ++ indentation depth ++ !"}" ++ r)); cbn; intuition discriminate|].
    rewrite app_assoc. apply (blanks_some (nl ++ indentation depth)); [apply Forall_app; split; [apply nl_blank|apply indentation_blank]|cbn; intuition discriminate].
  - cbn [map]. rewrite (GoStrFacts.join_cons (!"," ++ nl) (_ ++ _)) by discriminate. rewrite <- (app_assoc (indentation (S depth) ++ _)). rewrite <- (app_assoc (!"," ++ nl)).
    eapply member_more; [apply K|apply any_string_reads|apply blanks_none; cbn; intuition discriminate|apply V; cbn; intuition discriminate|apply blanks_none; cbn; intuition discriminate|].
    change (nl ++ ?x) with (nl ++ x). apply (IH nl); [discriminate|apply nl_blank].
Qed.

Lemma object_says : forall depth ms js, Forall2 member_says ms js -> value_says (json_object depth ms) (JObject js).
Proof.
  intros depth ms js F w r W E. destruct F as [|m j ms js F1 F2]; cbn [json_object].
  - eapply value_no_members; [apply blanks_some; [exact W|cbn; intuition discriminate]|]. apply blanks_none. cbn. intuition discriminate.
  - pose proof (members_read depth (m :: ms) (j :: js) nl r ltac:(discriminate) ltac:(constructor; auto) nl_blank) as M.
    remember (join (!"," ++ nl) (map (fun m0 => indentation (S depth) ++ json_string (fst m0) ++ !": " ++ snd m0) (m :: ms))) as middle.
    replace (nl ++ middle ++ nl ++ indentation depth ++ !"}" ++ r) with ((nl ++ middle ++ nl ++ indentation depth ++ !"}") ++ r) in M by (repeat rewrite <- app_assoc; reflexivity).
    eapply value_object; [|exact M]. change ((!"{" ++ nl ++ middle ++ nl ++ indentation depth ++ !"}") ++ r) with ("{"%char :: (nl ++ middle ++ nl ++ indentation depth ++ !"}") ++ r).
    apply blanks_some; [exact W|cbn; intuition discriminate].
Qed.

Lemma says_text : forall text v, value_says text v -> json_text text v /\ json_text (text ++ nl) v.
Proof.
  intros text v H. split.
  - exists []. split; [|apply blanks_none; exact I]. specialize (H [] [] ltac:(constructor) I). cbn [app] in H. rewrite app_nil_r in H. exact H.
  - exists nl. split; [apply (H []); [constructor|cbn; intuition discriminate]|]. exists nl. split; [reflexivity|]. split; [apply nl_blank|exact I].
Qed.
