(** internal/update: the record of the latest version and its file.

    Times are nanoseconds. Library parts are parameters: how a record is written as
    JSON and read back, and how hashicorp/go-version reads and compares versions. *)
From Verif Require Import Base.
From Coq Require Export ZArith.
Local Open Scope Z_scope.

(** cache.go 19-23. *)
Record crec := CRec { c_checked : Z; c_version : str; c_etag : str }.

(** cache.go 15-18. *)
Definition cache_name : str := lit "update-check.json".
Definition day : Z := 24 * 3600 * 1000000000.

(** cache.go 25-50: [file] is what [os.ReadFile] gave, [decode] is [json.Unmarshal]. *)
Definition load_cache (decode : str -> option crec) (file : option str) (now : Z) : option crec :=
  match file with
  | None => None
  | Some data =>
      match decode data with
      | None => None
      | Some c => if decide (c_version c = []) then None else if decide (now < c_checked c) then None else Some c
      end
  end.

(** cache.go 129-134. *)
Definition is_valid (c : option crec) (now : Z) : bool :=
  match c with None => false | Some c => bool_decide (now - c_checked c < day) end.

(** update.go 78-92. *)
Definition should_skip (getenv : str -> str) (current : str) : bool :=
  bool_decide (getenv (lit "BAB_NO_UPDATE_CHECK") = lit "1") ||
  (bool_decide (getenv (lit "CI") = lit "true") || bool_decide (getenv (lit "CI") = lit "1")) ||
  (bool_decide (current = lit "dev") || bool_decide (current = [])).

(** [strings.TrimPrefix(s, "v")]. *)
Definition trim_v (s : str) : str := match s with "v"%char :: r => r | _ => s end.

(** update.go 161-180; [parse] is [goversion.NewVersion], [gt] is [GreaterThan]. *)
Definition is_newer {V} (parse : str -> option V) (gt : V -> V -> bool) (latest current : str) : bool :=
  match trim_v latest, trim_v current with
  | [], _ | _, [] => false
  | l, c => match parse l, parse c with Some a, Some b => gt a b | _, _ => false end
  end.

(** update.go 37-49: the version announced. *)
Definition check_cached {V} (decode : str -> option crec) (parse : str -> option V) (gt : V -> V -> bool)
    (getenv : str -> str) (current : str) (file : option str) (now : Z) : option str :=
  if should_skip getenv current then None
  else match load_cache decode file now with
       | Some c => if is_newer parse gt (c_version c) current then Some (c_version c) else None
       | None => None
       end.

(** update.go 27-35: the refresh that is started, with the record it is given.
    [now] and [now'] are the two readings of the clock. *)
Definition start_refresh (decode : str -> option crec) (getenv : str -> str) (current : str) (file : option str)
    (now now' : Z) : option (option crec) :=
  if should_skip getenv current then None
  else let cached := load_cache decode file now in
       if is_valid cached now' then None else Some cached.

(** The server's answer as update.go 130-158 sees it: an error, a status, a decoded body
    ([None] for a body that is not such JSON) and the ETag header. *)
Inductive reply := Failed | Reply (status : Z) (tag : option str) (etag : str).

(** update.go 111-159: version and etag. *)
Definition fetch_latest (cached : option crec) (r : reply) : option (str * str) :=
  match r with
  | Failed => None
  | Reply status tag etag =>
      match bool_decide (status = 304), cached with
      | true, Some c => Some (c_version c, c_etag c)
      | _, _ =>
          if decide (status <> 200) then None
          else match tag with Some (c :: t) => Some (c :: t, etag) | _ => None end
      end
  end.

(** update.go 94-109: the record given to [saveCache], if any. *)
Definition refresh_cache (cached : option crec) (r : reply) (now : Z) : option crec :=
  match fetch_latest cached r with
  | Some (c :: v, etag) => Some (CRec now (c :: v) etag)
  | _ => None
  end.

(** update.go 126-128: the ETag sent with the request; empty for none. *)
Definition request_etag (cached : option crec) : str := match cached with Some c => c_etag c | None => [] end.

(** update.go 51-76: the version announced and the record given to [saveCache], if any. *)
Definition force_check {V} (parse : str -> option V) (gt : V -> V -> bool) (getenv : str -> str) (current : str) (r : reply) (now : Z) : option str * option crec :=
  if should_skip getenv current then (None, None)
  else match fetch_latest None r with
       | None => (None, None)
       | Some (latest, etag) =>
           (if is_newer parse gt latest current then Some latest else None, match latest with [] => None | _ => Some (CRec now latest etag) end)
       end.

(** ** The file: saveCache *)
Local Open Scope nat_scope.

(** A directory with hard links to files; [synced] are the files whose content is on
    disk. Kept beside it, not in the code: the names given out, the files that ever had
    the name of the cache, the contents that savers were started with. *)
Inductive phase :=
| Cleaning (rest : list str)
| Creating
| Writing (tmp : str) (file : nat) (rest : str)
| Syncing (tmp : str) (file : nat)
| Closing (tmp : str) (file : nat)
| Removing (tmp : str) (file : nat)
| Renaming (tmp : str) (file : nat)
| Dropping (tmp : str)
| Stopped.

Record disk := Disk {
  dk_dir : gmap str nat; dk_data : gmap nat str; dk_synced : gset nat; dk_procs : gmap nat (str * phase);
  dk_used : gset str; dk_past : list (option nat); dk_started : list str }.

(** cache.go 117: the names [cleanupTempFiles] removes; [os.CreateTemp] with the
    pattern of cache.go 70 makes only such names. *)
Definition temp_name (n : str) : Prop := exists mid, n = lit "update-check-" ++ mid ++ lit ".tmp".

Definition with_proc (p : nat) (d : str) (ph : phase) (k : disk) : disk :=
  Disk (dk_dir k) (dk_data k) (dk_synced k) (<[p := (d, ph)]> (dk_procs k)) (dk_used k) (dk_past k) (dk_started k).
Definition with_dir (dir : gmap str nat) (k : disk) : disk :=
  Disk dir (dk_data k) (dk_synced k) (dk_procs k) (dk_used k) (dk_dir k !! cache_name :: dk_past k) (dk_started k).

Section Disk.
Context (windows : bool).

(** One system call of one of any number of processes that save. Every call may fail,
    a process may die between any two calls, the machine may lose power. *)
Inductive sstep : disk -> disk -> Prop :=
(* cache.go 52-63: a process begins, with the marshalled record; what [ReadDir] gave
   (nothing when it failed) *)
| s_start k p d rest : dk_procs k !! p = None ->
    sstep k (Disk (dk_dir k) (dk_data k) (dk_synced k) (<[p := (d, Cleaning rest)]> (dk_procs k)) (dk_used k) (dk_past k) (d :: dk_started k))
(* cache.go 112-126: an entry is removed if its name is that of a temporary file (and
   it is old, which may be so or not) *)
| s_clean k p d n rest : dk_procs k !! p = Some (d, Cleaning (n :: rest)) -> temp_name n ->
    sstep k (with_proc p d (Cleaning rest) (with_dir (delete n (dk_dir k)) k))
| s_clean_skip k p d n rest : dk_procs k !! p = Some (d, Cleaning (n :: rest)) ->
    sstep k (with_proc p d (Cleaning rest) k)
| s_cleaned k p d : dk_procs k !! p = Some (d, Cleaning []) -> sstep k (with_proc p d Creating k)
(* cache.go 70-74: a new empty file under a name that is not in use. [os.CreateTemp]
   picks names at random; that a name is not given out twice is assumed. *)
| s_create k p d tmp f : dk_procs k !! p = Some (d, Creating) -> temp_name tmp -> tmp ∉ dk_used k -> dk_dir k !! tmp = None ->
    dk_data k !! f = None ->
    sstep k (Disk (<[tmp := f]> (dk_dir k)) (<[f := []]> (dk_data k)) (dk_synced k) (<[p := (d, Writing tmp f d)]> (dk_procs k))
               ({[tmp]} ∪ dk_used k) (dk_dir k !! cache_name :: dk_past k) (dk_started k))
| s_create_fails k p d : dk_procs k !! p = Some (d, Creating) -> sstep k (with_proc p d Stopped k)
(* cache.go 83-86: some more bytes are written *)
| s_write k p d tmp f a b c : dk_procs k !! p = Some (d, Writing tmp f (a ++ b)) -> dk_data k !! f = Some c ->
    sstep k (Disk (dk_dir k) (<[f := c ++ a]> (dk_data k)) (dk_synced k) (<[p := (d, Writing tmp f b)]> (dk_procs k)) (dk_used k) (dk_past k) (dk_started k))
| s_write_fails k p d tmp f rest : dk_procs k !! p = Some (d, Writing tmp f rest) -> sstep k (with_proc p d (Dropping tmp) k)
| s_written k p d tmp f : dk_procs k !! p = Some (d, Writing tmp f []) -> sstep k (with_proc p d (Syncing tmp f) k)
(* cache.go 88-91 *)
| s_sync k p d tmp f : dk_procs k !! p = Some (d, Syncing tmp f) ->
    sstep k (Disk (dk_dir k) (dk_data k) ({[f]} ∪ dk_synced k) (<[p := (d, Closing tmp f)]> (dk_procs k)) (dk_used k) (dk_past k) (dk_started k))
| s_sync_fails k p d tmp f : dk_procs k !! p = Some (d, Syncing tmp f) -> sstep k (with_proc p d (Dropping tmp) k)
(* cache.go 93-95 *)
| s_close k p d tmp f : dk_procs k !! p = Some (d, Closing tmp f) ->
    sstep k (with_proc p d (if windows then Removing tmp f else Renaming tmp f) k)
| s_close_fails k p d tmp f : dk_procs k !! p = Some (d, Closing tmp f) -> sstep k (with_proc p d (Dropping tmp) k)
(* cache.go 97-99 *)
| s_remove k p d tmp f : dk_procs k !! p = Some (d, Removing tmp f) ->
    sstep k (with_proc p d (Renaming tmp f) (with_dir (delete cache_name (dk_dir k)) k))
| s_remove_fails k p d tmp f : dk_procs k !! p = Some (d, Removing tmp f) -> sstep k (with_proc p d (Renaming tmp f) k)
(* cache.go 101-105 *)
| s_rename k p d tmp f g : dk_procs k !! p = Some (d, Renaming tmp f) -> dk_dir k !! tmp = Some g ->
    sstep k (with_proc p d Stopped (with_dir (<[cache_name := g]> (delete tmp (dk_dir k))) k))
| s_rename_fails k p d tmp f : dk_procs k !! p = Some (d, Renaming tmp f) -> sstep k (with_proc p d (Dropping tmp) k)
(* cache.go 76-81 *)
| s_drop k p d tmp : dk_procs k !! p = Some (d, Dropping tmp) ->
    sstep k (with_proc p d Stopped (with_dir (delete tmp (dk_dir k)) k))
| s_drop_fails k p d tmp : dk_procs k !! p = Some (d, Dropping tmp) -> sstep k (with_proc p d Stopped k)
(* not in the code: a process is killed *)
| s_killed k p d ph : dk_procs k !! p = Some (d, ph) -> sstep k (with_proc p d Stopped k)
(* not in the code: the machine stops. No process is left; files that are not synced
   have any content; the cache's name stands for a file it stood for at some time; what
   is left of the other names is unknown. *)
| s_power k dir data :
    dir !! cache_name ∈ dk_dir k !! cache_name :: dk_past k ->
    (forall f, is_Some (data !! f) <-> is_Some (dk_data k !! f)) ->
    (forall f, f ∈ dk_synced k -> data !! f = dk_data k !! f) ->
    sstep k (Disk dir data (dk_synced k) ((fun dp => (fst dp, Stopped)) <$> dk_procs k) (dk_used k)
               (dk_dir k !! cache_name :: dk_past k) (dk_started k)).
End Disk.

(** What [os.ReadFile] of the cache gives (cache.go 31-34). *)
Definition read_cache (k : disk) : option str := match dk_dir k !! cache_name with Some f => dk_data k !! f | None => None end.

(** One invocation of bab (cmd/root.go 41-56) as far as the record is concerned: the
    refresh, if one is started, its reply and, when a record results, whether saving it
    succeeds. In the code the refresh runs beside the command and dies with it; a
    refresh that does not finish is one whose reply is [Failed] or is not saved. *)
Local Open Scope Z_scope.
Record visit := Visit { v_env : str -> str; v_current : str; v_now : Z; v_now' : Z; v_reply : reply; v_at : Z; v_saved : bool }.
Definition visit_step (decode : str -> option crec) (encode : crec -> str) (file : option str) (v : visit) : option str * bool :=
  match start_refresh decode (v_env v) (v_current v) file (v_now v) (v_now' v) with
  | None => (file, false)
  | Some cached =>
      match refresh_cache cached (v_reply v) (v_at v) with
      | Some r => (if v_saved v then Some (encode r) else file, true)
      | None => (file, true)
      end
  end.
Fixpoint visits (decode : str -> option crec) (encode : crec -> str) (file : option str) (l : list visit) : option str * list bool :=
  match l with
  | [] => (file, [])
  | v :: l' => let '(file', b) := visit_step decode encode file v in
               let '(file'', bs) := visits decode encode file' l' in (file'', b :: bs)
  end.
