(** * Model of src/cache/cache.go over a file system with explicit system calls

    A Go function that uses util.CurrentFilesystem is modelled as a program tree [prog]: it issues one call after the
    other, and continues depending on the reply.  The meaning of the calls is given by [sys_step], a relation on
    [world]s that mirrors util.OsFilesystem (src/util/files.go:259-421).  A crash is the end of the execution after
    any number of steps.

    Simplifications:
    - Paths are relative to the cache directory and split into components.  C04 shows that the paths computed by the
      code have this form if the file name is not empty, "." or "..".
    - Directories are not represented.
    - Sizes and times are unbounded integers.  One time unit is one nanosecond.
    - cacheWriteMutex (cache.go:28, 57-58, 209-210) is what makes it possible to look at one call of CacheToFile or
      GetFile at a time; it is not represented here.
    - util.RequireFilePathIsSanitized is not represented (C02 shows that it accepts the used paths).
    - Log output is left out. *)

From Coq Require Import Ascii String.
From Coq Require Import List Arith NArith ZArith Bool Permutation.
From Verif Require Import GoStr UtilModel.
Import ListNotations.
Local Open Scope list_scope.

(** ** The file system *)

Definition path := list str.
Definition path_eq_dec : forall a b : path, {a = b} + {a <> b} := list_eq_dec str_eq_dec.

Record file := mkFile { f_path : path; f_data : str; f_mtime : Z }.

Definition f_size (f : file) : Z := Z.of_nat (List.length (f_data f)).

Record world := mkWorld { files : list file; clock : Z }.

Definition TempDirName : str := !".tmp".

(** Is the file inside a directory called .tmp?  (src/util/files.go:348-352, 384-388) *)
Definition in_tmp (p : path) : bool := mem_str TempDirName (removelast p).

Definition lookup (p : path) (fs : list file) : option file :=
  find (fun f => if path_eq_dec (f_path f) p then true else false) fs.

Definition delete (p : path) (fs : list file) : list file :=
  filter (fun f => if path_eq_dec (f_path f) p then false else true) fs.

Definition update (p : path) (g : file -> file) (fs : list file) : list file :=
  map (fun f => if path_eq_dec (f_path f) p then g f else f) fs.

(** Content of a file *)
Definition content (w : world) (p : path) : option str := option_map f_data (lookup p (files w)).

(** Sum of the file sizes *)
Definition total_size (fs : list file) : Z := fold_right (fun f s => (f_size f + s)%Z) 0%Z fs.

(** util.OsFilesystem.DirSizeInBytes, src/util/files.go:301-326: all files below the cache directory, including those
    in .tmp *)
Definition DirSizeInBytes (fs : list file) : Z := total_size fs.

(** util.OsFilesystem.FindLargestFile, src/util/files.go:328-362.  [walk] is the list of files in the order of
    filepath.Walk; [None] means that currentLargestFile is still nil. *)
Fixpoint FindLargestFile_walk (current : option file) (walk : list file) : option file :=
  match walk with
  | [] => current
  | f :: walk' =>
    if in_tmp (f_path f) then FindLargestFile_walk current walk'
    else match current with
         | None => FindLargestFile_walk (Some f) walk'
         | Some c => if (f_size c <? f_size f)%Z then FindLargestFile_walk (Some f) walk'
                     else FindLargestFile_walk current walk'
         end
  end.

(** util.OsFilesystem.FindLruFile, src/util/files.go:364-403 *)
Fixpoint FindLruFile_walk (current : option file) (walk : list file) : option file :=
  match walk with
  | [] => current
  | f :: walk' =>
    if in_tmp (f_path f) then FindLruFile_walk current walk'
    else match current with
         | None => FindLruFile_walk (Some f) walk'
         | Some c => if (f_mtime f <? f_mtime c)%Z then FindLruFile_walk (Some f) walk'
                     else FindLruFile_walk current walk'
         end
  end.

(** ** System calls *)

(** An HTTP request: method, URL, request body, and the part of the body that has not been read yet *)
Record request := mkRequest { q_post : bool; q_url : str; q_body : str; q_unread : str }.

(** What httpClient.Do returns: an error or a response with the used headers ([] if absent) and a body that delivers
    [a_body] and then ends with EOF ([a_complete]) or an error *)
Record response := mkResponse {
  a_status : Z;
  a_retry_after : str;          (* Retry-After *)
  a_api_error : str;            (* mediawiki-api-error *)
  a_location : str;             (* x-resource-location *)
  a_body : list str;
  a_complete : bool
}.

Inductive syscall :=
| SMkdirAll (folder : str)
| SCreateTemp (pattern : str)
| SWrite (tmp : path) (chunk : str)
| SDirSize
| SFileSize (tmp : path)            (* tempFile.Stat().Size() *)
| SGetSize (p : path)               (* GetSizeInBytes *)
| SFindLargest
| SFindLru
| SRemove (p : path)
| SClose (tmp : path)
| SRename (src dst : path)
| SStat (p : path)
| SNow
| SChtimes (p : path) (t : Z)
| SReadFile (p : path)
| SExists (p : path)                 (* util.PathExists *)
| SDo (q : request)                  (* httpClient.Do *)
| SSleep (seconds : Z)               (* sleepFunc *)
| SConvert (src dst : path)          (* imageProcessingService.ConvertToPng: an external program *)
| SRewrite (p : path).               (* ResizeAndCompressImage and MakeSvgSizeAbsolute change a file in place *)

(** Reply to a search for a file *)
Inductive found :=
| FoundFile (size : Z) (p : path)
| FoundNothing
| FoundErr.

(** Reply of Stat *)
Inductive stat_reply :=
| StatOk (mtime : Z)
| StatNotExist
| StatErr.

(** Reply of MkdirAll *)
Inductive mkdir_reply := MkdirOk | MkdirExist | MkdirErr.

Definition reply (c : syscall) : Type :=
  match c with
  | SMkdirAll _ => mkdir_reply
  | SCreateTemp _ => option path
  | SWrite _ _ => bool
  | SDirSize => option Z
  | SFileSize _ => option Z
  | SGetSize _ => option Z
  | SFindLargest => found
  | SFindLru => found
  | SRemove _ => bool
  | SClose _ => bool
  | SRename _ _ => bool
  | SStat _ => stat_reply
  | SNow => Z
  | SChtimes _ _ => bool
  | SReadFile _ => option str
  | SExists _ => bool
  | SDo _ => option response
  | SSleep _ => unit
  | SConvert _ _ => bool
  | SRewrite _ => bool
  end.

(** Effect of one system call.  With [faulty = false] a call only fails if it has to (missing file); with
    [faulty = true] every call may fail at any time.  The clock never goes backwards. *)
Definition sys_step (faulty : bool) (w : world) (c : syscall) : reply c -> world -> Prop :=
  match c return reply c -> world -> Prop with
  | SMkdirAll _ => fun r w' =>
      files w' = files w /\ (clock w <= clock w')%Z /\ (r = MkdirErr -> faulty = true)
  | SCreateTemp pattern => fun r w' =>
      (clock w <= clock w')%Z /\
      match r with
      | Some p => exists random, p = [TempDirName; pattern ++ random] /\ lookup p (files w) = None /\
                    files w' = mkFile p [] (clock w') :: files w
      | None => faulty = true /\ files w' = files w
      end
  | SWrite tmp chunk => fun r w' =>
      (clock w <= clock w')%Z /\
      match r with
      | true => files w' = update tmp (fun f => mkFile (f_path f) (f_data f ++ chunk) (clock w')) (files w)
      | false => faulty = true /\ exists n,
          files w' = update tmp (fun f => mkFile (f_path f) (f_data f ++ firstn n chunk) (clock w')) (files w)
      end
  | SDirSize => fun r w' =>
      files w' = files w /\ (clock w <= clock w')%Z /\
      match r with Some n => n = DirSizeInBytes (files w) | None => faulty = true end
  | SFileSize tmp => fun r w' =>
      files w' = files w /\ (clock w <= clock w')%Z /\
      match r with Some n => exists f, lookup tmp (files w) = Some f /\ n = f_size f
      | None => faulty = true \/ lookup tmp (files w) = None end
  | SGetSize p => fun r w' =>
      files w' = files w /\ (clock w <= clock w')%Z /\
      match r with
      | Some n => exists f, lookup p (files w) = Some f /\ n = f_size f
      | None => faulty = true \/ lookup p (files w) = None
      end
  | SFindLargest => fun r w' =>
      files w' = files w /\ (clock w <= clock w')%Z /\
      (r = FoundErr /\ faulty = true \/
       exists walk, Permutation walk (files w) /\
         r = match FindLargestFile_walk None walk with
             | Some f => FoundFile (f_size f) (f_path f)
             | None => FoundNothing
             end)
  | SFindLru => fun r w' =>
      files w' = files w /\ (clock w <= clock w')%Z /\
      (r = FoundErr /\ faulty = true \/
       exists walk, Permutation walk (files w) /\
         r = match FindLruFile_walk None walk with
             | Some f => FoundFile (f_size f) (f_path f)
             | None => FoundNothing
             end)
  | SRemove p => fun r w' =>
      (clock w <= clock w')%Z /\
      match r with
      | true => lookup p (files w) <> None /\ files w' = delete p (files w)
      | false => (faulty = true \/ lookup p (files w) = None) /\ files w' = files w
      end
  | SClose tmp => fun r w' =>
      files w' = files w /\ (clock w <= clock w')%Z /\ (r = false -> faulty = true)
  | SRename src dst => fun r w' =>
      (clock w <= clock w')%Z /\
      match r with
      | true => exists f, lookup src (files w) = Some f /\
                  files w' = mkFile dst (f_data f) (f_mtime f) :: delete dst (delete src (files w))
      | false => (faulty = true \/ lookup src (files w) = None) /\ files w' = files w
      end
  | SStat p => fun r w' =>
      files w' = files w /\ (clock w <= clock w')%Z /\
      match r with
      | StatOk t => exists f, lookup p (files w) = Some f /\ t = f_mtime f
      | StatNotExist => lookup p (files w) = None
      | StatErr => faulty = true
      end
  | SNow => fun r w' => files w' = files w /\ (clock w <= clock w')%Z /\ r = clock w'
  | SChtimes p t => fun r w' =>
      (clock w <= clock w')%Z /\
      match r with
      | true => lookup p (files w) <> None /\
                files w' = update p (fun f => mkFile (f_path f) (f_data f) t) (files w)
      | false => (faulty = true \/ lookup p (files w) = None) /\ files w' = files w
      end
  | SReadFile p => fun r w' =>
      files w' = files w /\ (clock w <= clock w')%Z /\
      match r with
      | Some d => content w p = Some d
      | None => faulty = true \/ content w p = None
      end
  | SExists p => fun r w' =>
      files w' = files w /\ (clock w <= clock w')%Z /\
      match r with
      | true => lookup p (files w) <> None
      | false => faulty = true \/ lookup p (files w) = None
      end
  | SDo q => fun r w' =>
      (* Any answer is possible.  Only a request whose body has been read before cannot be sent again: net/http
         reports an error because the body is shorter than the declared content length. *)
      files w' = files w /\ (clock w <= clock w')%Z /\
      (List.length (q_unread q) <> List.length (q_body q) -> r = None)
  | SSleep _ => fun _ w' => files w' = files w /\ (clock w <= clock w')%Z
  | SConvert src dst => fun r w' =>
      (clock w <= clock w')%Z /\
      match r with
      | true => exists d, files w' = mkFile dst d (clock w') :: delete dst (files w)
      | false => files w' = files w \/ exists d, files w' = mkFile dst d (clock w') :: delete dst (files w)
      end
  | SRewrite p => fun r w' =>
      (clock w <= clock w')%Z /\
      ((r = false /\ files w' = files w) \/ exists d, files w' = update p (fun f => mkFile (f_path f) d (clock w')) (files w))
  end.

(** ** Programs *)

Inductive prog (A : Type) : Type :=
| Ret (a : A)
| Call (c : syscall) (k : reply c -> prog A).
Arguments Ret {A} a.
Arguments Call {A} c k.

Fixpoint pbind {A C} (p : prog A) (f : A -> prog C) : prog C :=
  match p with
  | Ret a => f a
  | Call c k => Call c (fun r => pbind (k r) f)
  end.

(** [steps faulty p w p' w']: starting [p] in [w], some number of system calls lead to the remaining program [p'] and
    the world [w'] (which is where a crash may happen). *)
Inductive steps {A} (faulty : bool) : prog A -> world -> prog A -> world -> Prop :=
| steps_refl : forall p w, steps faulty p w p w
| steps_call : forall c k w r w' p'' w'',
    sys_step faulty w c r w' -> steps faulty (k r) w' p'' w'' -> steps faulty (Call c k) w p'' w''.

(** ** cache.go *)

(** config.CacheEvictionStrategy..., src/config/config.go *)
Inductive strategy := StrategyNone | StrategyLargest | StrategyLru.

Record cache_config := mkCacheConfig {
  CacheEvictionStrategy : strategy;
  CacheMaxSize : Z;      (* bytes *)
  CacheMaxAge : Z        (* minutes *)
}.

(** The path of a cached file (cache.go:31-33) relative to the cache directory *)
Definition cache_path (folder filename : str) : path := [folder; SanitizeFilename filename].

(** cache.deleteLargestFileFromCache, cache.go:169-185.  [FoundNothing] is the nil dereference in
    src/util/files.go:361. *)
Definition deleteLargestFileFromCache (cacheSize : Z) : prog (res Z) :=
  Call SFindLargest (fun r =>
    match r with
    | FoundErr => Ret Err
    | FoundNothing => Ret Panic
    | FoundFile size p => Call (SRemove p) (fun ok => Ret (if ok : bool then Ok (cacheSize - size)%Z else Err))
    end).

(** cache.deleteLruFileFromCache, cache.go:187-203.  If there is no file, FindLruFile returns size 0 and the empty path
    (src/util/files.go:397-400); removing the empty path fails. *)
Definition deleteLruFileFromCache (cacheSize : Z) : prog (res Z) :=
  Call SFindLru (fun r =>
    match r with
    | FoundErr => Ret Err
    | FoundNothing => Call (SRemove []) (fun ok => Ret (if ok : bool then Ok (cacheSize - 0)%Z else Err))
    | FoundFile size p => Call (SRemove p) (fun ok => Ret (if ok : bool then Ok (cacheSize - size)%Z else Err))
    end).

(** The loop of cache.deleteFilesFromCacheIfNeeded, cache.go:151-164.  An unsupported strategy (cache.go:158-160) ends
    the process; it cannot occur because the caller excludes "none" and validation excludes everything else. *)
Fixpoint evict_loop (cfg : cache_config) (fuel : nat) (net cacheSize : Z) : prog (res unit) :=
  if (CacheMaxSize cfg <=? cacheSize + net)%Z then
    match fuel with
    | O => Ret OutOfFuel
    | S fuel' =>
      pbind (match CacheEvictionStrategy cfg with
             | StrategyLargest => deleteLargestFileFromCache cacheSize
             | StrategyLru => deleteLruFileFromCache cacheSize
             | StrategyNone => Ret Panic
             end)
            (fun r => match r with
                      | Ok cacheSize' => evict_loop cfg fuel' net cacheSize'
                      | Err => Ret Err
                      | Panic => Ret Panic
                      | OutOfFuel => Ret OutOfFuel
                      end)
    end
  else Ret (Ok tt).

(** cache.deleteFilesFromCacheIfNeeded, cache.go:140-167 *)
Definition deleteFilesFromCacheIfNeeded (cfg : cache_config) (fuel : nat) (folder filename : str)
    (newFileSize cacheSize : Z) : prog (res unit) :=
  Call (SGetSize (cache_path folder filename)) (fun r =>
    let net := match r with Some existing => (newFileSize - existing)%Z | None => newFileSize end in
    evict_loop cfg fuel net cacheSize).

(** io.Copy from a reader that delivers [chunks] and then ends with EOF ([readOk]) or an error, cache.go:89 *)
Fixpoint Copy (tmp : path) (chunks : list str) (readOk : bool) : prog (res unit) :=
  match chunks with
  | [] => Ret (if readOk then Ok tt else Err)
  | c :: chunks' => Call (SWrite tmp c) (fun ok => if ok : bool then Copy tmp chunks' readOk else Ret Err)
  end.

(** Continues after an error check. *)
Definition then_ok (p : prog (res unit)) (q : prog (res unit)) : prog (res unit) :=
  pbind p (fun r => match r with Ok _ => q | Err => Ret Err | Panic => Ret Panic | OutOfFuel => Ret OutOfFuel end).

(** cache.go:94-116: evict files if needed *)
Definition CacheToFile_evict (cfg : cache_config) (fuel : nat) (folder filename : str) (tmp : path) : prog (res unit) :=
  match CacheEvictionStrategy cfg with
  | StrategyNone => Ret (Ok tt)
  | _ =>
    Call SDirSize (fun r =>
      match r with
      | None => Ret Err
      | Some cacheSize =>
        Call (SFileSize tmp) (fun r =>
          match r with
          | None => Ret Err
          | Some size => deleteFilesFromCacheIfNeeded cfg fuel folder filename size cacheSize
          end)
      end)
  end.

(** cache.go:118-135: close and move *)
Definition CacheToFile_move (folder filename : str) (tmp : path) : prog (res unit) :=
  Call (SClose tmp) (fun ok =>
    if ok : bool then
      Call (SRename tmp (cache_path folder filename)) (fun ok => Ret (if ok : bool then Ok tt else Err))
    else Ret Err).

(** cache.CacheToFile, cache.go:56-136.  The deferred calls (lines 82 and 84) run in reverse order after the body.
    The returned path is always cache_path and is left out. *)
Definition CacheToFile (cfg : cache_config) (fuel : nat) (folder filename : str) (chunks : list str) (readOk : bool)
  : prog (res unit) :=
  Call (SMkdirAll folder) (fun r =>
    match r with
    | MkdirErr => Ret Err
    | _ =>
      Call (SCreateTemp (SanitizeFilename filename)) (fun r =>
        match r with
        | None => Ret Err
        | Some tmp =>
          pbind
            (then_ok (Copy tmp chunks readOk)
               (then_ok (CacheToFile_evict cfg fuel folder filename tmp)
                  (CacheToFile_move folder filename tmp)))
            (fun res => Call (SRemove tmp) (fun _ => Call (SClose tmp) (fun _ => Ret res)))
        end)
    end).

Definition ns_per_minute : Z := 60000000000.

(** cache.isOutdated, cache.go:247-264: (outdated, exists).  Durations are not limited to int64; converting the
    minutes to int64 rounds towards zero. *)
Definition isOutdated (cfg : cache_config) (folder filename : str) : prog (res (bool * bool)) :=
  Call (SStat (cache_path folder filename)) (fun r =>
    match r with
    | StatNotExist => Ret (Ok (false, false))
    | StatErr => Ret Err
    | StatOk mtime =>
      Call SNow (fun now => Ret (Ok ((CacheMaxAge cfg <? Z.quot (now - mtime) ns_per_minute)%Z, true)))
    end).

(** cache.go:231-239: with the LRU strategy the file times are set; a failure is only logged *)
Definition touch (cfg : cache_config) (p : path) (result : res bool) : prog (res bool) :=
  match CacheEvictionStrategy cfg with
  | StrategyLru => Call SNow (fun now => Call (SChtimes p now) (fun _ => Ret result))
  | _ => Ret result
  end.

(** cache.GetFile, cache.go:208-242 *)
Definition GetFile (cfg : cache_config) (folder filename : str) : prog (res bool) :=
  pbind (isOutdated cfg folder filename) (fun r =>
    match r with
    | Err => Ret Err
    | Panic => Ret Panic
    | OutOfFuel => Ret OutOfFuel
    | Ok (_, false) => Ret (Ok false)
    | Ok (true, true) =>
      Call (SRemove (cache_path folder filename)) (fun ok =>
        if ok : bool then touch cfg (cache_path folder filename) (Ok false) else Ret Err)
    | Ok (false, true) => touch cfg (cache_path folder filename) (Ok true)
    end).
