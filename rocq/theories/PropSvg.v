(** * C49: sizes of SVG files *)

From Coq Require Import Ascii String.
From Coq Require Import List Arith Bool.
From Verif Require Import GoStr SvgModel SvgSpec SvgProofs.
Import ListNotations.
Local Open Scope list_scope.

(** If the width is relative, width and height become the size of the view box and nothing else changes. *)
Theorem C49_relative_width_partial : forall parse before attributes rest w0 h0 sep x y w h,
  reads_size parse before attributes rest -> ordinary before attributes ->
  value !"width" attributes = Some w0 -> value !"height" attributes = Some h0 -> relative w0 ->
  value !"viewBox" attributes = Some (join [sep] [x; y; w; h]) ->
  (sep = ","%char \/ sep = " "%char) ->
  (forall z c, In z [x; y; w; h] -> (c = ","%char \/ c = " "%char) -> ~ In c z) ->
  MakeSvgSizeAbsolute parse (svg_text before attributes rest) =
  Ok (svg_text before (set_value !"height" (h ++ !"pt") (set_value !"width" (w ++ !"pt") attributes)) rest).
Proof. intros. eapply resize_general; eauto. Qed.
Print Assumptions C49_relative_width_partial.

Definition example_parse (w h : str) (file : str) : option (str * str) := Some (w, h).
Definition example_attributes (w h : str) : list attribute :=
  [(!"id", !"a"); (!"height", h); (!"width", w); (!"viewBox", !"0 0 30 20.5")].

Lemma example_ordinary : forall w h, In (w, h) [(!"100%", !"50%"); (!"7", !"8"); (!"7", !"50%")] ->
  ordinary !"<?xml?>" (example_attributes w h).
Proof.
  intros w h I. split; [|split].
  - intros x [<-|[<-|[<-|[]]]]; vm_compute; reflexivity.
  - repeat constructor; intros K; repeat (destruct K as [K|K]; [discriminate K|]); exact K.
  - intros n v J. repeat (destruct J as [J|J]; [inversion J; subst; clear J|]); [..|destruct J];
    (repeat (destruct I as [I|I]; [inversion I; subst; clear I|]); [..|destruct I]);
    (split; [|split; [|split]];
      [intros K; repeat (destruct K as [K|K]; [discriminate K|]); exact K
      |intros K; repeat (destruct K as [K|K]; [discriminate K|]); exact K
      |intros K; repeat (destruct K as [K|K]; [discriminate K|]); exact K
      |intros x [<-|[<-|[<-|[]]]]; (split; [vm_compute; intros; first [discriminate|reflexivity]|vm_compute; reflexivity])]).
Qed.

Example C49_relative_width_example :
  MakeSvgSizeAbsolute (example_parse !"100%" !"50%") (svg_text !"<?xml?>" (example_attributes !"100%" !"50%") !"></svg>") =
  Ok (svg_text !"<?xml?>" (example_attributes !"30pt" !"20.5pt") !"></svg>").
Proof.
  refine (C49_relative_width_partial (example_parse !"100%" !"50%") _ (example_attributes !"100%" !"50%") _ !"100%" !"50%" " "%char !"0" !"0" !"30" !"20.5" _ _ _ _ _ _ _ _);
    try (vm_compute; reflexivity).
  - apply example_ordinary. left; reflexivity.
  - right; reflexivity.
  - intros z c [<-|[<-|[<-|[<-|[]]]]] [->| ->] K; repeat (destruct K as [K|K]; [discriminate K|]); exact K.
Qed.

(** Without a view box a file never changes. *)
Theorem C49_no_viewbox : forall parse file f, contains (!"viewBox=" ++ dq) file = false ->
  MakeSvgSizeAbsolute parse file = Ok f -> f = file.
Proof. exact no_viewbox_kept. Qed.
Print Assumptions C49_no_viewbox.
Example C49_no_viewbox_example : exists f, MakeSvgSizeAbsolute (example_parse [] []) !"<svg></svg>" = Ok f.
Proof. eexists; reflexivity. Qed.

(** The claim is false if both sizes are absolute: they are overwritten by the size of the view box. *)
Theorem C49_absolute_refuted : forall parse before attributes rest w0 h0 sep x y w h,
  reads_size parse before attributes rest -> ordinary before attributes ->
  value !"width" attributes = Some w0 -> value !"height" attributes = Some h0 -> ~ relative w0 -> ~ relative h0 ->
  value !"viewBox" attributes = Some (join [sep] [x; y; w; h]) ->
  (sep = ","%char \/ sep = " "%char) ->
  (forall z c, In z [x; y; w; h] -> (c = ","%char \/ c = " "%char) -> ~ In c z) ->
  MakeSvgSizeAbsolute parse (svg_text before attributes rest) =
  Ok (svg_text before (set_value !"height" (h ++ !"pt") (set_value !"width" (w ++ !"pt") attributes)) rest).
Proof. intros. eapply resize_general; eauto. Qed.
Print Assumptions C49_absolute_refuted.
Example C49_absolute_example :
  MakeSvgSizeAbsolute (example_parse !"7" !"8") (svg_text !"<?xml?>" (example_attributes !"7" !"8") !"></svg>") =
  Ok (svg_text !"<?xml?>" (example_attributes !"30pt" !"20.5pt") !"></svg>").
Proof. vm_compute. reflexivity. Qed.

(** The claim is false if only the height is relative: the file stays unchanged. *)
Theorem C49_relative_height_refuted : forall parse before attributes rest,
  reads_size parse before attributes rest ->
  ~ relative (or_empty (value !"width" attributes)) -> relative (or_empty (value !"height" attributes)) ->
  MakeSvgSizeAbsolute parse (svg_text before attributes rest) = Ok (svg_text before attributes rest).
Proof. exact relative_height_kept. Qed.
Print Assumptions C49_relative_height_refuted.
Example C49_relative_height_example : ~ relative !"7" /\ relative !"50%".
Proof. split; [intros K; discriminate K|reflexivity]. Qed.

(** The claim is false for a missing width: it is not added.  It is also false if the values are separated by comma and
    space, which is allowed and usual: the result is no valid size. *)
Theorem C49_missing_width_refuted : forall parse,
  let attributes := [(!"height", !"8"); (!"viewBox", !"0 0 30 20.5")] in
  ordinary [] attributes -> reads_size parse [] attributes !"></svg>" ->
  MakeSvgSizeAbsolute parse (svg_text [] attributes !"></svg>") =
  Ok (svg_text [] [(!"height", !"20.5pt"); (!"viewBox", !"0 0 30 20.5")] !"></svg>").
Proof. intros parse attributes _ R. unfold MakeSvgSizeAbsolute. rewrite R. vm_compute. reflexivity. Qed.
Print Assumptions C49_missing_width_refuted.

Theorem C49_comma_space_refuted : forall parse,
  let attributes := [(!"width", !"100%"); (!"height", !"100%"); (!"viewBox", !"0, 0, 30, 20")] in
  reads_size parse [] attributes !"></svg>" ->
  MakeSvgSizeAbsolute parse (svg_text [] attributes !"></svg>") =
  Ok (svg_text [] [(!"width", !" 30pt"); (!"height", !" 20pt"); (!"viewBox", !"0, 0, 30, 20")] !"></svg>").
Proof. intros parse attributes R. unfold MakeSvgSizeAbsolute. rewrite R. vm_compute. reflexivity. Qed.
Print Assumptions C49_comma_space_refuted.
