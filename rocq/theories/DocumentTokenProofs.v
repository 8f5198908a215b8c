(** * The pictures of a document are among the tokens of the article *)

From Coq Require Import Ascii String.
From Coq Require Import List Arith NArith Bool Lia.
From Verif Require Import GoStr GoStrFacts ConfigModel TokenModel TokenSpec TokenProofs.
From Verif Require Import PassSpec FormattingSpec DocumentSpec DocumentLineProofs DocumentRunProofs DocumentPictureProofs DocumentBlockProofs DocumentListProofs DocumentGridProofs DocumentPassProofs BookImageSpec.
Import ListNotations.
Local Open Scope list_scope.

Section Tokens.
Variable t : Tokenizer.
Variable p : picture.
Definition known : Prop := exists key p', In (key, picture_token p') (tokenMap t) /\ captioned t p p'.

Lemma in_parts_of : forall A B (x : B) (g : A -> list B) l, In x (concat (map g l)) -> exists y, In y l /\ In x (g y).
Proof. intros A B x g l I. apply in_concat in I as (y & J & I). apply in_map_iff in J as (z & <- & J). eauto. Qed.

Lemma Forall2_in : forall A B (R : A -> B -> Prop) l l' x, Forall2 R l l' -> In x l -> exists y, In y l' /\ R x y.
Proof. intros A B R l l' x F. induction F as [|a b l l' H F IH]; intros I; [destruct I|]. destruct I as [->|I]; [exists b; split; [left; auto|auto]|]. destruct (IH I) as (y & Y & Z). exists y. split; [right; auto|auto]. Qed.

Lemma line_known : forall l o l', In p (line_pictures l) -> Forall2 (shown t) (bold o l) l' -> known.
Proof.
  induction l as [|i l IH]; intros o l' I F; [destruct I|]. unfold line_pictures in I. cbn [map concat] in I. apply in_app_iff in I as [I|I].
  - destruct i as [s|q|a lb|u lb|g|p'|nn nr]; try (destruct I; fail). destruct I as [->|[]]. cbn [bold] in F. inversion F as [|? y ? ys S F']; subst. cbn [shown] in S. destruct S as (key & _ & S). exists key. exact S.
  - destruct i as [s|q|a lb|u lb|g|p'|nn nr]; cbn [bold] in F; inversion F as [|? y ? ys S F']; subst; eapply IH; eauto.
Qed.

Lemma item_known : forall i i', In p (item_pictures i) -> item_rel (Forall2 (shown t)) (bold_item i) i' -> known.
Proof.
  refine (item_rect' _ _). intros m w below IH i' I H. cbn [item_pictures bold_item] in *. inversion H as [? x x' b b' H1 H2]; subst. apply in_app_iff in I as [I|I]; [eapply line_known; eauto|].
  apply in_parts_of in I as (l & L & I). apply in_parts_of in I as (i & Li & I). rewrite Forall_forall in IH. specialize (IH l L). rewrite Forall_forall in IH. specialize (IH i Li).
  destruct (Forall2_in _ _ _ _ _ _ H2 (in_map (map bold_item) _ _ L)) as (l' & _ & F). destruct (Forall2_in _ _ _ _ _ _ F (in_map bold_item _ _ Li)) as (j & _ & J). eapply IH; eauto.
Qed.

Lemma block_known : forall b ss, In p (block_pictures b) -> placed t (bold_block b) ss -> known.
Proof.
  intros [n title|lines|items|a caption rows|p'|fn ft fa fx] ss I H; cbn [block_pictures bold_block placed] in *.
  - destruct H as (key & title' & _ & _ & H). eapply line_known; eauto.
  - destruct H as (lines' & _ & H). apply in_parts_of in I as (l & L & I). destruct (Forall2_in _ _ _ _ _ _ H (in_map (bold []) _ _ L)) as (l' & _ & F). eapply line_known; eauto.
  - destruct H as (key & items' & _ & _ & H). apply in_parts_of in I as (i & L & I). destruct (Forall2_in _ _ _ _ _ _ H (in_map bold_item _ _ L)) as (l' & _ & F). eapply item_known; eauto.
  - destruct H as (key & caption' & rows' & _ & _ & H). cbn [block_rel] in H. destruct H as (c2 & r2 & E & H1 & H2). injection E as <- <-. apply in_app_iff in I as [I|I].
    + destruct caption as [c|]; [|destruct I]. cbn [option_map] in H1. destruct caption' as [c'|]; [|destruct H1]. eapply line_known; eauto.
    + apply in_parts_of in I as (row & L & I). unfold cells_pictures in I. apply in_parts_of in I as (c & C & I). apply in_concat in C as (cells & C1 & C2).
      destruct (Forall2_in _ _ _ _ _ _ H2 (in_map (map (map bold_cell)) _ _ L)) as (row' & _ & F). destruct (Forall2_in _ _ _ _ _ _ F (in_map (map bold_cell) _ _ C1)) as (cells' & _ & F2).
      destruct (Forall2_in _ _ _ _ _ _ F2 (in_map bold_cell _ _ C2)) as (c' & _ & _ & F3). cbn [bold_cell snd] in F3. eapply line_known; eauto.
  - destruct I as [->|[]]. destruct H as (key & _ & H). exists key. exact H.
  - destruct H as (key & keys & _ & (title' & _ & Sh) & D). apply in_app_iff in I as [I|I]; [eapply line_known; eauto|]. apply in_parts_of in I as (q & Q & I).
    assert (X : exists key, defined t key (fst q, bold [] (snd q))).
    { apply (in_map (fun p : nat * list inline => (fst p, bold [] (snd p)))) in Q. clear - D Q. revert Q. induction D as [|k x keys texts H D IH]; intros Q; [destruct Q|]. destruct Q as [->|Q]; [eauto|apply IH; auto]. }
    destruct X as (k & text' & _ & X). cbn [snd] in X. eapply line_known; eauto.
Qed.

Lemma document_known : forall doc bs, In p (document_pictures doc) -> Forall2 (placed t) (map bold_block doc) bs -> known.
Proof. intros doc bs I F. apply in_parts_of in I as (b & B & I). destruct (Forall2_in _ _ _ _ _ _ F (in_map bold_block _ _ B)) as (ss & _ & P). eapply block_known; eauto. Qed.
End Tokens.

(** The article of the document *)
Definition parsed_as (doc : list block) (text : str) (t : Tokenizer) : Prop :=
  unique t /\ exists bs, Forall2 (placed t) (map bold_block doc) bs /\ text = join nl (breaks (map bold_block doc) bs).

Lemma parsed_known : forall doc text t p, parsed_as doc text t -> In p (document_pictures doc) -> known t p.
Proof. intros doc text t p (_ & bs & B & _) I. eapply document_known; eauto. Qed.
