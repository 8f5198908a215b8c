(** * C01-C06: file names, cache paths, list helpers *)

From Coq Require Import Ascii String.
From Coq Require Import List Permutation.
From Verif Require Import GoStr GoStrFacts UtilModel UtilSpec UtilProofs.
Import ListNotations.
Local Open Scope list_scope.

(** C01: different names never get the same file name. *)
Theorem C01_sanitized_names_distinct : forall a b : str,
  a <> b -> SanitizeFilename a <> SanitizeFilename b.
Proof. exact (fun a b N E => N (SanitizeFilename_inj a b E)). Qed.
Print Assumptions C01_sanitized_names_distinct.
Example C01_example : SanitizeFilename !"a/b" = !"a%2Fb" /\ SanitizeFilename !"a%2Fb" = !"a%252Fb".
Proof. vm_compute. split; reflexivity. Qed.

(** C02: a sanitized name has no reserved character, each % starts an escape code, and the guard accepts it. *)
Theorem C02_sanitized_name_accepted : forall n : str,
  (forall c, In c reserved -> ~ In c (SanitizeFilename n)) /\
  escaped (SanitizeFilename n) /\
  IsSanitized (SanitizeFilename n) = true.
Proof.
  exact (fun n => conj (SanitizeFilename_reserved n) (conj (SanitizeFilename_escaped n) (IsSanitized_Sanitize n))).
Qed.
Print Assumptions C02_sanitized_name_accepted.

(** ... and so is the whole path of the cached file, if the cache directory and folder are acceptable at all. *)
Theorem C02_cache_path_accepted : forall cacheDir folder n : str,
  IsSanitized cacheDir = true -> IsSanitized folder = true -> entry_name folder ->
  n <> [] -> n <> !"." -> n <> !".." ->
  IsSanitized (GetFilePathInCache cacheDir folder n) = true.
Proof. exact GetFilePath_guard. Qed.
Print Assumptions C02_cache_path_accepted.
Example C02_example : IsSanitized !"/home/me/.cache/wiki2book" = true /\
  IsSanitized (GetFilePathInCache !"/home/me/.cache/wiki2book" !"images" !"AC/DC: 100%?.jpg") = true.
Proof. vm_compute. split; reflexivity. Qed.

(** C03: an accepted path has no reserved character. *)
Theorem C03_guard_rejects_reserved : forall (path : str) (c : ascii),
  IsSanitized path = true -> In c reserved -> c <> "/"%char -> ~ In c path.
Proof. exact IsSanitized_chars. Qed.
Print Assumptions C03_guard_rejects_reserved.
Example C03_example : IsSanitized !"/a/b%3Fc" = true /\ IsSanitized !"/a/b?c" = false /\ IsSanitized !"/a/b%c" = false.
Proof. vm_compute. repeat split; reflexivity. Qed.

(** C03, strong reading, is false: the guard accepts a component in which a % starts no escape code, because
    deleting one code can create another one. *)
Theorem C03_guard_accepts_only_escaped_refuted :
  exists name : str, ~ In "/"%char name /\ IsSanitized name = true /\ ~ escaped name.
Proof.
  exists !"%3%25C". split; [intros H; vm_compute in H; intuition discriminate|]. split; [vm_compute; reflexivity|].
  intros H. inversion H as [|c s H1 H2 H3|code s H1 H2 H3]; [congruence|].
  repeat (destruct H1 as [<-|H1]; [discriminate|]). contradiction.
Qed.
Print Assumptions C03_guard_accepts_only_escaped_refuted.

(** C04: a cached file is a direct child of its cache folder, and different (folder, name) pairs have different paths. *)
Theorem C04_cache_path_direct_child : forall cacheDir folder n : str,
  In folder cache_folders -> n <> [] -> n <> !"." -> n <> !".." ->
  GetFilePathInCache cacheDir folder n = GetDirPathInCache cacheDir folder ++ !"/" ++ SanitizeFilename n /\
  GetRelativeFilePathInCache folder n = folder ++ !"/" ++ SanitizeFilename n /\
  entry_name (SanitizeFilename n).
Proof.
  exact (fun d f n Hf A B C =>
    conj (GetFilePath_direct_child d f n (cache_folders_entry f Hf) A B C)
      (conj (GetRelativeFilePath_eq f n (cache_folders_entry f Hf) A B C) (sanitize_entry n A B C))).
Qed.
Print Assumptions C04_cache_path_direct_child.

Theorem C04_cache_paths_distinct : forall cacheDir f1 n1 f2 n2 : str,
  In f1 cache_folders -> In f2 cache_folders ->
  n1 <> [] -> n1 <> !"." -> n1 <> !".." -> n2 <> [] -> n2 <> !"." -> n2 <> !".." ->
  (f1, n1) <> (f2, n2) ->
  GetFilePathInCache cacheDir f1 n1 <> GetFilePathInCache cacheDir f2 n2.
Proof.
  exact (fun d f1 n1 f2 n2 F1 F2 A1 B1 C1 A2 B2 C2 N E =>
    match GetFilePath_inj d f1 n1 f2 n2 (cache_folders_entry _ F1) (cache_folders_entry _ F2) A1 B1 C1 A2 B2 C2 E with
    | conj Ef En => N (f_equal2 pair Ef En)
    end).
Qed.
Print Assumptions C04_cache_paths_distinct.
Example C04_example :
  GetFilePathInCache !"./cache/" !"images" !"a/b.png" = !"cache/images/a%2Fb.png" /\
  GetFilePathInCache !"/x/../y" !"math" !"m" = !"/y/math/m".
Proof. vm_compute. split; reflexivity. Qed.

(** C04 for all names is false: the name ".." leaves the folder, and "." and "" are the folder itself. *)
Theorem C04_all_names_refuted :
  GetFilePathInCache !"/cache" !"images" !".." = !"/cache" /\
  GetFilePathInCache !"/cache" !"images" !"." = GetFilePathInCache !"/cache" !"images" [] /\
  GetFilePathInCache !"/cache" !"images" !".." = GetFilePathInCache !"/cache" !"math" !"..".
Proof. vm_compute. repeat split; reflexivity. Qed.
Print Assumptions C04_all_names_refuted.

(** C05 is false: lists with different elements are called equal, and the answer depends on the argument order. *)
Theorem C05_equals_in_any_order_refuted :
  exists a b : list str, EqualsInAnyOrder a b = true /\ EqualsInAnyOrder b a = false /\
    ~ Permutation a b /\ (exists x, In x b /\ ~ In x a).
Proof.
  exists [!"x"; !"x"], [!"x"; !"y"]. split; [vm_compute; reflexivity|]. split; [vm_compute; reflexivity|].
  assert (K : ~ In !"y" [!"x"; !"x"]) by (intros H; vm_compute in H; intuition discriminate).
  split.
  - intros P. apply K. eapply Permutation_in; [apply Permutation_sym; exact P|]. right; left; reflexivity.
  - exists !"y". split; [right; left; reflexivity|exact K].
Qed.
Print Assumptions C05_equals_in_any_order_refuted.

(** C05 holds if the first list has no repeated elements. *)
Theorem C05_equals_in_any_order_partial : forall a b : list str,
  NoDup a -> (EqualsInAnyOrder a b = true <-> Permutation a b).
Proof. exact EqualsInAnyOrder_perm. Qed.
Print Assumptions C05_equals_in_any_order_partial.
Example C05_example : EqualsInAnyOrder [!"a"; !"b"; !"c"] [!"c"; !"a"; !"b"] = true /\
  EqualsInAnyOrder [!"a"; !"b"] [!"a"; !"c"] = false.
Proof. vm_compute. split; reflexivity. Qed.

(** C06: exactly one copy of each element is kept, in the order of first appearance. *)
Theorem C06_remove_duplicates : forall l : list str,
  NoDup (RemoveDuplicates l) /\
  (forall x, In x (RemoveDuplicates l) <-> In x l) /\
  RemoveDuplicates l = first_occurrences l.
Proof.
  exact (fun l => conj (RemoveDuplicates_loop_NoDup l [])
    (conj (fun x => conj (fun H => proj1 (proj1 (RemoveDuplicates_loop_In l [] x) H))
                         (fun H => proj2 (RemoveDuplicates_loop_In l [] x) (conj H (fun F => F))))
          (RemoveDuplicates_first l))).
Qed.
Print Assumptions C06_remove_duplicates.
Example C06_example : RemoveDuplicates [!"b"; !"a"; !"b"; !"c"; !"a"] = [!"b"; !"a"; !"c"].
Proof. vm_compute. reflexivity. Qed.
