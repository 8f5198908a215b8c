(** * Model of src/util (file names, paths, collections) and of the path functions of src/cache/cache.go *)

From Coq Require Import Ascii String.
From Coq Require Import List Arith NArith ZArith Bool.
From Verif Require Import GoStr.
Import ListNotations.
Local Open Scope list_scope.

(** util.SanitizeFilename, src/util/files.go:141-170: ten sequential replacements in this order. *)
Definition SanitizeFilename (filename : str) : str :=
  let filename := replace_all !"%" !"%25" filename in
  let filename := replace_all !"<" !"%3C" filename in
  let filename := replace_all !">" !"%3E" filename in
  let filename := replace_all !":" !"%3A" filename in
  let filename := replace_all dq   !"%22" filename in
  let filename := replace_all !"/" !"%2F" filename in
  let filename := replace_all !"\" !"%5C" filename in
  let filename := replace_all !"|" !"%7C" filename in
  let filename := replace_all !"?" !"%3F" filename in
  let filename := replace_all !"*" !"%2A" filename in
  filename.

(** Loop body of util.IsSanitized, src/util/files.go:199-222: true iff the part does not lead to [return false]. *)
Definition part_is_sanitized (part : str) : bool :=
  let part := replace_all !"%25" [] part in
  let part := replace_all !"%3C" [] part in
  let part := replace_all !"%3E" [] part in
  let part := replace_all !"%3A" [] part in
  let part := replace_all !"%22" [] part in
  let part := replace_all !"%2F" [] part in
  let part := replace_all !"%5C" [] part in
  let part := replace_all !"%7C" [] part in
  let part := replace_all !"%3F" [] part in
  let part := replace_all !"%2A" [] part in
  negb (contains !"%" part || contains !"<" part || contains !">" part || contains !":" part ||
        contains dq part || contains !"/" part || contains !"\" part || contains !"|" part ||
        contains !"?" part || contains !"*" part).

(** util.IsSanitized, src/util/files.go:174-226.  Only the non-Windows behaviour is modelled (lines 191-195 are
    skipped); the path separator is "/". *)
Definition IsSanitized (path : str) : bool :=
  forallb part_is_sanitized (split !"/" path).

(** util.EqualsInAnyOrder, src/util/collections.go:13-37.  The maps only serve membership tests. *)
Definition EqualsInAnyOrder (arrayA arrayB : list str) : bool :=
  Nat.eqb (List.length arrayA) (List.length arrayB) &&
  forallb (fun value => mem_str value arrayA && mem_str value arrayB) arrayA.

(** util.RemoveDuplicates, src/util/collections.go:39-49; [handled] is the key set of handledEntries. *)
Fixpoint RemoveDuplicates_loop (handled : list str) (l : list str) : list str :=
  match l with
  | [] => []
  | item :: l' =>
    if mem_str item handled then RemoveDuplicates_loop handled l'
    else item :: RemoveDuplicates_loop (item :: handled) l'
  end.
Definition RemoveDuplicates (l : list str) : list str := RemoveDuplicates_loop [] l.

(** util.HasAnyPrefix, src/util/string.go:24-31 *)
Definition HasAnyPrefix (element : str) (prefixes : list str) : bool :=
  existsb (fun p => has_prefix p element) prefixes.

(** util.HasPrefixIgnoreCase, src/util/string.go:33-35 *)
Definition HasPrefixIgnoreCase (text prefix : str) : bool :=
  has_prefix (to_lower prefix) (to_lower text).

(** util.EqualsIgnoreCase, src/util/string.go:37-39 *)
Definition EqualsIgnoreCase (text element : str) : bool :=
  str_eqb (to_lower text) (to_lower element).

(** util.TruncString, src/util/string.go:11-17 *)
Definition TruncString (content : str) : str :=
  let firstPart := firstn (Nat.min (List.length content) 50) content in
  if (50 <? List.length content)%nat then firstPart ++ !"..." else firstPart.

(** util.GetTextAround, src/util/string.go:70-74 *)
Definition GetTextAround (text : str) (atIndex areaSizeAround : Z) : res str :=
  let startIndex := Z.max 0 (atIndex - areaSizeAround) in
  let endIndex := (Z.min (Z.of_nat (List.length text) - 1) (atIndex + areaSizeAround) + 1)%Z in
  zslice text startIndex endIndex.

(** ** path/filepath (Unix) *)

(** One path component inside filepath.Clean; [acc] is the reversed list of the components kept so far. *)
Definition clean_step (rooted : bool) (acc : list str) (c : str) : list str :=
  if str_eqb c [] || str_eqb c !"." then acc
  else if str_eqb c !".." then
    match acc with
    | [] => if rooted then [] else [c]
    | a :: acc' => if str_eqb a !".." then c :: acc else acc'
    end
  else c :: acc.

(** Renders the reversed component list. *)
Definition render_path (rooted : bool) (acc : list str) : str :=
  match acc with
  | [] => if rooted then !"/" else !"."
  | _ => (if rooted then !"/" else []) ++ join !"/" (rev acc)
  end.

(** filepath.Clean *)
Definition path_clean (path : str) : str :=
  let rooted := has_prefix !"/" path in
  render_path rooted (fold_left (clean_step rooted) (split !"/" path) []).

(** filepath.Join: leading empty elements are skipped *)
Fixpoint path_join (elems : list str) : str :=
  match elems with
  | [] => []
  | [] :: elems' => path_join elems'
  | _ => path_clean (join !"/" elems)
  end.

(** filepath.IsAbs *)
Definition path_is_abs (path : str) : bool := has_prefix !"/" path.

(** filepath.Ext: the part from the last dot of the last component on. *)
Fixpoint ext_go (rev_path acc : str) : str :=
  match rev_path with
  | [] => []
  | c :: r =>
    if Ascii.eqb c "/" then []
    else if Ascii.eqb c "." then c :: acc
    else ext_go r (c :: acc)
  end.
Definition path_ext (path : str) : str := ext_go (rev path) [].

(** ** Path functions of the cache *)

(** cache.GetFilePathInCache, src/cache/cache.go:31-33.  [cacheDir] is config.Current.CacheDir. *)
Definition GetFilePathInCache (cacheDir cacheFolderName filename : str) : str :=
  path_join [cacheDir; cacheFolderName; SanitizeFilename filename].

(** cache.GetRelativeFilePathInCache, src/cache/cache.go:35-37 *)
Definition GetRelativeFilePathInCache (cacheFolderName filename : str) : str :=
  path_join [!"."; cacheFolderName; SanitizeFilename filename].

(** cache.GetDirPathInCache, src/cache/cache.go:45-47 *)
Definition GetDirPathInCache (cacheDir cacheFolderName : str) : str :=
  path_join [cacheDir; cacheFolderName].

(** cache.GetTempPath, src/cache/cache.go:49-51 (TempDirName = ".tmp") *)
Definition GetTempPath (cacheDir : str) : str := path_join [cacheDir; !".tmp"].

(** The cache folder names of src/cache/cache.go:19-24 *)
Definition cache_folders : list str :=
  [!"articles"; !"html"; !"stats"; !"images"; !"math"; !"templates"].
