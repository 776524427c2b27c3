(** Model of py/koladata/ext/storage/data_bag_manager.py: managers of named data
    bags that live in directories of a file system.

    Any number of threads (of any number of processes) call the methods of
    their own manager objects. Every interaction with the file system is one
    step, so that other threads run, and processes die, between any two of
    them. Local computation between two interactions belongs to the step
    before.

    Outside of the model: the bytes of a file (a file holds a complete bag, a
    complete metadata record, or is partially written), the spelling of
    directory names (a path is a directory with a file name, where the code
    uses os.path.join), files that no manager wrote, removal of files by the
    user, and the [version] string of the metadata, which nothing reads. *)
From Coq Require Import String Ascii.
From Coq Require Import NArith List Bool PeanoNat.
Import ListNotations.
Local Open Scope nat_scope.

(** * File names *)

Definition dir := string.
Definition uuid := string.

Inductive fname :=
| BagFile (u : uuid) (i : nat)
| MetaFile (n : N)
| TempFile (n : N) (u : uuid).

Definition fname_eqb (a b : fname) : bool :=
  match a, b with
  | BagFile u i, BagFile v j => String.eqb u v && Nat.eqb i j
  | MetaFile n, MetaFile m => N.eqb n m
  | TempFile n u, TempFile m v => N.eqb n m && String.eqb u v
  | _, _ => false
  end.

Definition digit (n : N) : ascii := ascii_of_N (48 + n).
Definition one (c : ascii) : string := String c EmptyString.

(** str(n) *)
Fixpoint decimal_aux (fuel : nat) (n : N) : string :=
  match fuel with
  | O => EmptyString
  | S fuel =>
      if N.ltb n 10 then one (digit n)
      else append (decimal_aux fuel (n / 10)) (one (digit (n mod 10)))
  end.
Definition decimal (n : N) : string := decimal_aux (S (N.size_nat n)) n.

Fixpoint zeros (k : nat) : string :=
  match k with O => EmptyString | S k => String "0" (zeros k) end.

(** data_bag_manager.py:774-775 *)
Definition num_digits : nat := 12.

(** s.zfill(12) *)
Definition zfill (s : string) : string :=
  append (zeros (num_digits - String.length s)) s.

(** data_bag_manager.py:743, 796-799 and 813-816 *)
Definition render (f : fname) : string :=
  match f with
  | BagFile u i =>
      append "bag-" (append u (append "-" (append (zfill (decimal (N.of_nat i))) ".kd")))
  | MetaFile n => append "metadata-" (append (zfill (decimal n)) ".pb")
  | TempFile n u =>
      append "metadata-" (append (zfill (decimal n)) (append "-" (append u ".pb")))
  end.

Definition is_digit (c : ascii) : bool :=
  (48 <=? nat_of_ascii c) && (nat_of_ascii c <=? 57).

Fixpoint strip_prefix (p s : string) : option string :=
  match p, s with
  | EmptyString, _ => Some s
  | String a p, String b s => if Ascii.eqb a b then strip_prefix p s else None
  | _, EmptyString => None
  end.

Fixpoint strip_digits (k : nat) (s : string) : option string :=
  match k, s with
  | O, _ => Some s
  | S k, String c s => if is_digit c then strip_digits k s else None
  | S _, EmptyString => None
  end.

(** data_bag_manager.py:826-829: the pattern metadata-[0-9]...[0-9].pb *)
Definition matches_pattern (s : string) : bool :=
  match strip_prefix "metadata-" s with
  | None => false
  | Some s =>
      match strip_digits num_digits s with
      | None => false
      | Some s => String.eqb s ".pb"
      end
  end.

(** max of the names, data_bag_manager.py:830 *)
Fixpoint greatest (best : fname) (l : list fname) : fname :=
  match l with
  | [] => best
  | f :: l => greatest (if String.ltb (render best) (render f) then f else best) l
  end.

Section Store.
Context {Bag Custom : Type}.

(** Which element set.pop() removes is not specified: any function. *)
Variable pick : list string -> nat.
(** The process a thread belongs to: threads of one process share the cache. *)
Variable process_of : nat -> nat.
(** Whether fs.rename(overwrite=False) is one step (see fs_interface.py), or
    the check and the rename of file_io/fs_implementation.py:45-55. *)
Variable atomic : bool.

(** * Metadata *)

(** metadata.proto: DataBagMetadata *)
Record entry := Entry {
  e_name : string;
  e_file : fname;
  e_deps : list string;
  e_custom : option Custom;
  e_dir : option dir
}.

(** metadata.proto: DataBagManagerMetadata *)
Record meta := Meta { m_number : N; m_bags : list entry }.

(** data_bag_manager.py:42-60: BagToAdd *)
Record to_add := ToAdd {
  a_name : string;
  a_bag : Bag;
  a_deps : list string;
  a_custom : option Custom
}.

(** data_bag_manager.py:103-106 *)
Record manager := Manager { g_dir : dir; g_meta : meta }.

(** * The file system *)

Inductive content :=
| BagContent (b : Bag)
| MetaContent (m : meta)
| Partial.

Definition path : Type := (dir * fname)%type.
Definition path_eqb (p q : path) : bool :=
  String.eqb (fst p) (fst q) && fname_eqb (snd p) (snd q).

Definition files : Type := list (path * content).

Fixpoint look (fs : files) (p : path) : option content :=
  match fs with
  | [] => None
  | (q, c) :: fs => if path_eqb q p then Some c else look fs p
  end.
Definition unlink (p : path) (fs : files) : files :=
  filter (fun x => negb (path_eqb (fst x) p)) fs.
Definition put (p : path) (c : content) (fs : files) : files :=
  (p, c) :: unlink p fs.
(** os.rename / os.replace *)
Definition move (p q : path) (fs : files) : files :=
  match look fs p with
  | None => fs
  | Some c => put q c (unlink p fs)
  end.

(** glob(dir/ * ) *)
Definition listing (fs : files) (d : dir) : list fname :=
  map (fun x => snd (fst x))
    (filter (fun x : path * content => String.eqb (fst (fst x)) d) fs).

(** data_bag_manager.py:822-832, without the final read: max() of an empty
    collection is a ValueError *)
Definition latest_name (fs : files) (d : dir) : option fname :=
  match filter (fun f => matches_pattern (render f)) (listing fs d) with
  | [] => None
  | f :: l => Some (greatest f l)
  end.

(** * Names, dependencies and closures *)

Definition has_name (s : string) (l : list string) : bool :=
  existsb (String.eqb s) l.

(** data_bag_manager.py:221-228 *)
Definition names_of (m : meta) : list string := map e_name (m_bags m).

(** data_bag_manager.py:615-617: a dict display, the last binding wins *)
Definition dependency_relation (m : meta) (s : string) : option (list string) :=
  match find (fun e => String.eqb (e_name e) s) (rev (m_bags m)) with
  | None => None
  | Some e => Some (e_deps e)
  end.

(** data_bag_manager.py:619-625: a defaultdict, never a KeyError *)
Definition reverse_dependency_relation (m : meta) (s : string)
  : option (list string) :=
  Some (map e_name (filter (fun e => has_name s (e_deps e)) (m_bags m))).

(** set.add / set.update on duplicate-free lists *)
Definition set_add (l : list string) (s : string) : list string :=
  if has_name s l then l else l ++ [s].
Definition set_update (l ss : list string) : list string :=
  fold_left set_add ss l.

Definition pop (l : list string) : option (string * list string) :=
  match l with
  | [] => None
  | x :: _ =>
      let i := pick l mod length l in
      Some (nth i l x, firstn i l ++ skipn (S i) l)
  end.

(** data_bag_manager.py:627-641; [None] is the KeyError of relation[current]
    (or no fuel left) *)
Fixpoint closure_loop (fuel : nat) (relation : string -> option (list string))
  (unvisited result : list string) : option (list string) :=
  match fuel with
  | O => None
  | S fuel =>
      match pop unvisited with
      | None => Some result
      | Some (current, unvisited) =>
          if has_name current result
          then closure_loop fuel relation unvisited result
          else
            match relation current with
            | None => None
            | Some next =>
                closure_loop fuel relation (set_update unvisited next)
                  (result ++ [current])
            end
      end
  end.

Definition closure_fuel (m : meta) : nat :=
  S (length (m_bags m)) * S (length (m_bags m)) + 1.

Inductive error :=
| DirectoryNotEmpty | NoDirectory | NoMetadata | ReadError
| NameAlreadyAdded | UnknownDependency | UnknownBags | AlreadyCommitted
| FileExists | IoError | KeyError.

(** data_bag_manager.py:577-613 *)
Definition dependency_closure (m : meta) (bag_names : list string)
  (with_all_dependents : bool) : list string + error :=
  let names := set_update [] bag_names in
  if negb (forallb (fun s => has_name s (names_of m)) names)
  then inr UnknownBags
  else
    match
      (if with_all_dependents
       then
         match closure_loop (closure_fuel m) (reverse_dependency_relation m)
                 names [] with
         | None => None
         | Some l => Some (set_update names l)
         end
       else Some names)
    with
    | None => inr KeyError
    | Some names =>
        match closure_loop (closure_fuel m) (dependency_relation m) names [] with
        | None => inr KeyError
        | Some l => inl l
        end
    end.

(** data_bag_manager.py:735-738 *)
Fixpoint last_index (s : string) (l : list string) (i : nat) (found : option nat)
  : option nat :=
  match l with
  | [] => found
  | x :: l => last_index s l (S i) (if String.eqb x s then Some i else found)
  end.
Definition add_index (m : meta) (s : string) : nat :=
  match last_index s (names_of m) 0 None with
  | Some i => i
  | None => 0 (* a KeyError; not for names of the manager *)
  end.
Fixpoint insert_sorted (key : string -> nat) (s : string) (l : list string)
  : list string :=
  match l with
  | [] => [s]
  | x :: l' =>
      if key x <? key s then x :: insert_sorted key s l' else s :: l
  end.
Definition canonical_topological_sorting (m : meta) (names : list string)
  : list string :=
  fold_right (insert_sorted (add_index m)) [] names.

(** data_bag_manager.py:751-758 *)
Definition entry_path (d : dir) (e : entry) : path :=
  (match e_dir e with Some d' => d' | None => d end, e_file e).
Definition bag_filepath (g : manager) (s : string) : option path :=
  match find (fun e => String.eqb (e_name e) s) (m_bags (g_meta g)) with
  | None => None
  | Some e => Some (entry_path (g_dir g) e)
  end.

(** data_bag_manager.py:281-293 *)
Fixpoint validate (available : list string) (bags : list to_add)
  : option error :=
  match bags with
  | [] => None
  | b :: bags =>
      if has_name (a_name b) available then Some NameAlreadyAdded
      else if negb (forallb (fun s => has_name s available) (a_deps b))
      then Some UnknownDependency
      else validate (a_name b :: available) bags
  end.

(** data_bag_manager.py:495-503 *)
Fixpoint new_entries (u : uuid) (i : nat) (bags : list to_add) : list entry :=
  match bags with
  | [] => []
  | b :: bags =>
      Entry (a_name b) (BagFile u i) (a_deps b) (a_custom b) None
        :: new_entries u (S i) bags
  end.
(** data_bag_manager.py:492-503 *)
Definition extended_meta (m : meta) (u : uuid) (bags : list to_add) : meta :=
  Meta (m_number m + 1) (m_bags m ++ new_entries u 0 bags).

(** data_bag_manager.py:424-436 *)
Definition branch_meta (g : manager) (names : list string) : meta :=
  Meta 0
    (map (fun e =>
            Entry (e_name e) (e_file e) (e_deps e) (e_custom e)
              (match e_dir e with Some d => Some d | None => Some (g_dir g) end))
       (filter (fun e => has_name (e_name e) names) (m_bags (g_meta g)))).

(** data_bag_manager.py:367-376: no custom metadata is passed on *)
Fixpoint bags_to_extract (m : meta) (loaded : list (string * Bag))
  (names : list string) : option (list to_add) :=
  match names with
  | [] => Some []
  | s :: names =>
      match find (fun x => String.eqb (fst x) s) loaded, dependency_relation m s,
            bags_to_extract m loaded names with
      | Some (_, b), Some ds, Some l => Some (ToAdd s b ds None :: l)
      | _, _, _ => None
      end
  end.

(** * Threads *)

(** The calls a user makes; managers are numbered per thread. *)
Inductive call :=
| CreateNew (d : dir)
| CreateFromDir (d : dir)
| AddBags (i : nat) (bags : list to_add)
| LoadBags (i : nat) (names : list string) (with_all_dependents : bool)
| GetMinimalBag (i : nat) (names : list string) (with_all_dependents : bool)
| ExtractBags (i : nat) (names : list string) (with_all_dependents : bool)
    (output_dir : dir)
| CreateBranch (i : nat) (names : list string) (with_all_dependents : bool)
    (output_dir : dir).

(** What a call returns. The bag of get_minimal_bag is kd.bags.updated of the
    listed bags. *)
Inductive result :=
| Nothing
| NewManager
| Added
| Loaded (l : list (string * Bag))
| Updated (l : list Bag)
| Extracted
| Branched
| Failed (e : error).

Inductive phase := ToCheck | ToOpen | ToWrite | Written | Broken.
Record job := Job { j_file : fname; j_bag : Bag; j_phase : phase }.

(** What remains to be done once metadata has been committed *)
Inductive after :=
| AfterNew
| AfterAdd (i : nat) (g : manager) (bags : list to_add)
| AfterExtractNew (bags : list to_add)
| AfterExtractAdd (bags : list to_add)
| AfterBranch.

Inductive purpose := ForLoad | ForMinimal | ForExtract (d : dir).

Inductive output := OutExtract (bags : list to_add) | OutBranch (m : meta).

(** The next interaction with the file system of a running call *)
Inductive task :=
(* local computation before the first interaction; never seen between steps *)
| Begun
(* create_new, :129-131 *)
| NewExists (d : dir) (k : after)
| NewMakeDirs (d : dir) (k : after)
| NewGlob (d : dir) (k : after)
(* _persist_metadata, :800, :817, :818, :819 *)
| PersistExists (d : dir) (m : meta) (k : after)
| PersistOpen (d : dir) (m : meta) (k : after)
| PersistWrite (d : dir) (m : meta) (u : uuid) (k : after)
| PersistRename (d : dir) (m : meta) (u : uuid) (k : after)
| PersistRenameNow (d : dir) (m : meta) (u : uuid) (k : after)
(* create_from_dir, :172, :176, :827, :831 *)
| FromExists (d : dir)
| FromGlob (d : dir)
| FromLatest (d : dir)
| FromRead (d : dir) (f : fname)
(* _add_bags, :480 and :481-490 *)
| AddStart (g : manager) (bags : list to_add) (k : after)
| Writing (g : manager) (bags : list to_add) (u : uuid) (jobs : list job)
    (k : after)
(* _load_exactly_these_bags, :678-704 *)
| Loading (g : manager) (todo : list string) (loaded : list (string * Bag))
    (p : purpose)
(* extract_bags and create_branch, :355-357 and :417-419 *)
| OutExists (d : dir) (o : output)
| OutMakeDirs (d : dir) (o : output)
| OutGlob (d : dir) (o : output).

Record thread := Thread {
  managers : list manager;
  running : option (call * task);
  outcome : result
}.

(** * The whole system *)

(** The bags that metadata [m] of directory [d] refers to, if the files of all of
    them are there and complete *)
Definition stored_entry (fs : files) (d : dir) (e : entry) : option to_add :=
  match look fs (entry_path d e) with
  | Some (BagContent b) => Some (ToAdd (e_name e) b (e_deps e) (e_custom e))
  | _ => None
  end.
Fixpoint stored_entries (fs : files) (d : dir) (es : list entry)
  : option (list to_add) :=
  match es with
  | [] => Some []
  | e :: es =>
      match stored_entry fs d e, stored_entries fs d es with
      | Some x, Some l => Some (x :: l)
      | _, _ => None
      end
  end.
Definition stored (fs : files) (d : dir) (m : meta) : option (list to_add) :=
  stored_entries fs d (m_bags m).

(** The history of commits is kept for the specification; nothing reads it. *)
Inductive change :=
| Created
| BagsAdded (bags : list to_add)
| BranchOf (bags : list to_add).
Record commit := Commit {
  c_thread : nat;
  c_dir : dir;
  c_number : N;
  c_change : change
}.

Definition cache : Type := list ((string * path) * Bag).

Record world := World {
  w_files : files;
  w_dirs : list dir;
  w_used : list uuid;
  w_threads : nat -> thread;
  w_caches : nat -> cache;
  w_log : list commit
}.

Definition set_thread (w : world) (t : nat) (th : thread) : world :=
  World (w_files w) (w_dirs w) (w_used w)
    (fun t' => if Nat.eqb t' t then th else w_threads w t')
    (w_caches w) (w_log w).
Definition set_files (w : world) (fs : files) : world :=
  World fs (w_dirs w) (w_used w) (w_threads w) (w_caches w) (w_log w).
Definition add_dir (w : world) (d : dir) : world :=
  World (w_files w) (d :: w_dirs w) (w_used w) (w_threads w) (w_caches w) (w_log w).
Definition use_uuid (w : world) (u : uuid) : world :=
  World (w_files w) (w_dirs w) (u :: w_used w) (w_threads w) (w_caches w) (w_log w).
Definition set_cache (w : world) (p : nat) (c : cache) : world :=
  World (w_files w) (w_dirs w) (w_used w) (w_threads w)
    (fun p' => if Nat.eqb p' p then c else w_caches w p') (w_log w).
Definition log_commit (w : world) (c : commit) : world :=
  World (w_files w) (w_dirs w) (w_used w) (w_threads w) (w_caches w)
    (w_log w ++ [c]).

(** The call goes on with another task. *)
Definition goto (w : world) (t : nat) (tk : task) : world :=
  let th := w_threads w t in
  match running th with
  | None => w
  | Some (c, _) => set_thread w t (Thread (managers th) (Some (c, tk)) (outcome th))
  end.
(** The call returns or raises. *)
Definition return_ (w : world) (t : nat) (r : result) : world :=
  set_thread w t (Thread (managers (w_threads w t)) None r).
Definition raise_ (w : world) (t : nat) (e : error) : world :=
  return_ w t (Failed e).
Definition return_manager (w : world) (t : nat) (g : manager) : world :=
  set_thread w t (Thread (managers (w_threads w t) ++ [g]) None NewManager).

Fixpoint replace_nth {A : Type} (i : nat) (x : A) (l : list A) : list A :=
  match l, i with
  | [], _ => []
  | _ :: l, O => x :: l
  | y :: l, S i => y :: replace_nth i x l
  end.

(** fs.exists of a directory; of a file *)
Definition dir_exists (w : world) (d : dir) : bool := existsb (String.eqb d) (w_dirs w).
Definition file_exists (w : world) (p : path) : bool :=
  match look (w_files w) p with Some _ => true | None => false end.
Definition empty_dir (w : world) (d : dir) : bool :=
  match listing (w_files w) d with [] => true | _ => false end.

(** uuid.uuid1() returns strings of 36 characters, never one twice *)
Definition fresh (w : world) (u : uuid) : bool :=
  Nat.eqb (String.length u) 36 && negb (existsb (String.eqb u) (w_used w)).

(** * The cache (its own algorithm is in LruModel) *)

Definition key_eqb (a b : string * path) : bool :=
  String.eqb (fst a) (fst b) && path_eqb (snd a) (snd b).
Definition cache_get (c : cache) (k : string * path) : option Bag :=
  match find (fun x => key_eqb (fst x) k) c with
  | None => None
  | Some (_, b) => Some b
  end.
(** cache.set keeps and returns the value another thread has set; it may
    evict anything, which is the event [Evict] below *)
Definition cache_set (c : cache) (k : string * path) (b : Bag) : cache * Bag :=
  match cache_get c k with
  | Some b' => (c, b')
  | None => ((k, b) :: c, b)
  end.

(** data_bag_manager.py:533-554 *)
Fixpoint cache_new (c : cache) (d : dir) (es : list entry) (bags : list to_add)
  : cache :=
  match es, bags with
  | e :: es, b :: bags =>
      cache_new (fst (cache_set c (a_name b, (d, e_file e)) (a_bag b))) d es bags
  | _, _ => c
  end.

(** * The steps of the calls *)

(** data_bag_manager.py:137-141 *)
Definition initial_meta : meta := Meta 0 [].

(** The commit took place: data_bag_manager.py:143-148, :377, :508-554 *)
Definition committed (w : world) (t : nat) (d : dir) (m : meta) (k : after)
  : world :=
  match k with
  | AfterNew =>
      return_manager
        (log_commit w (Commit t d (m_number m) Created)) t (Manager d m)
  | AfterAdd i g bags =>
      let w := log_commit w (Commit t d (m_number m) (BagsAdded bags)) in
      let th := w_threads w t in
      let p := process_of t in
      let es := skipn (length (m_bags (g_meta g))) (m_bags m) in
      set_thread (set_cache w p (cache_new (w_caches w p) d es bags)) t
        (Thread (replace_nth i (Manager d m) (managers th)) None Added)
  | AfterExtractNew bags =>
      let w := log_commit w (Commit t d (m_number m) Created) in
      match validate (names_of m) bags with
      | Some e => raise_ w t e
      | None => goto w t (AddStart (Manager d m) bags (AfterExtractAdd bags))
      end
  | AfterExtractAdd bags =>
      let w := log_commit w (Commit t d (m_number m) (BagsAdded bags)) in
      let p := process_of t in
      return_
        (set_cache w p (cache_new (w_caches w p) d (m_bags m) bags)) t Extracted
  | AfterBranch =>
      let bags := match stored (w_files w) d m with Some l => l | None => [] end in
      return_ (log_commit w (Commit t d (m_number m) (BranchOf bags))) t Branched
  end.

(** All bags of the call are loaded: data_bag_manager.py:318-321, :349-377 *)
Definition all_loaded (w : world) (t : nat) (g : manager)
  (loaded : list (string * Bag)) (p : purpose) : world :=
  match p with
  | ForLoad => return_ w t (Loaded loaded)
  | ForMinimal =>
      match bags_to_extract (g_meta g) loaded
              (canonical_topological_sorting (g_meta g) (map fst loaded)) with
      | None => raise_ w t KeyError
      | Some bags => return_ w t (Updated (map a_bag bags))
      end
  | ForExtract d =>
      match bags_to_extract (g_meta g) loaded
              (canonical_topological_sorting (g_meta g) (map fst loaded)) with
      | None => raise_ w t KeyError
      | Some bags => goto w t (OutExists d (OutExtract bags))
      end
  end.

(** data_bag_manager.py:659-677: the bags found in the cache, and the others *)
Fixpoint from_cache (c : cache) (g : manager) (names : list string)
  : option (list (string * Bag) * list string) :=
  match names with
  | [] => Some ([], [])
  | s :: names =>
      match bag_filepath g s, from_cache c g names with
      | Some p, Some (found, needed) =>
          match cache_get c (s, p) with
          | Some b => Some ((s, b) :: found, needed)
          | None => Some (found, s :: needed)
          end
      | _, _ => None
      end
  end.

Definition start_loading (w : world) (t : nat) (g : manager)
  (names : list string) (with_all_dependents : bool) (p : purpose) : world :=
  match dependency_closure (g_meta g) names with_all_dependents with
  | inr e => raise_ w t e
  | inl l =>
      match from_cache (w_caches w (process_of t)) g l with
      | None => raise_ w t KeyError
      | Some (found, []) => all_loaded w t g found p
      | Some (found, needed) => goto w t (Loading g needed found p)
      end
  end.

Definition begin_ (w : world) (t : nat) (c : call) : world :=
  let th := w_threads w t in
  let w := set_thread w t
             (Thread (managers th) (Some (c, Begun)) Nothing) in
  let with_manager i (f : manager -> world) :=
    match nth_error (managers th) i with
    | None => raise_ w t KeyError
    | Some g => f g
    end in
  match c with
  | CreateNew d => goto w t (NewExists d AfterNew)
  | CreateFromDir d => goto w t (FromExists d)
  | AddBags i bags =>
      with_manager i (fun g =>
        match validate (names_of (g_meta g)) bags with
        | Some e => raise_ w t e
        | None => goto w t (AddStart g bags (AfterAdd i g bags))
        end)
  | LoadBags i names deps =>
      with_manager i (fun g => start_loading w t g names deps ForLoad)
  | GetMinimalBag i names deps =>
      with_manager i (fun g => start_loading w t g names deps ForMinimal)
  | ExtractBags i names deps d =>
      with_manager i (fun g => start_loading w t g names deps (ForExtract d))
  | CreateBranch i names deps d =>
      with_manager i (fun g =>
        match dependency_closure (g_meta g) names deps with
        | inr e => raise_ w t e
        | inl l => goto w t (OutExists d (OutBranch (branch_meta g l)))
        end)
  end.

(** data_bag_manager.py:366, :438 *)
Definition output_ready (w : world) (t : nat) (d : dir) (o : output) : world :=
  match o with
  | OutExtract bags => goto w t (NewExists d (AfterExtractNew bags))
  | OutBranch m => goto w t (PersistExists d m AfterBranch)
  end.

Definition job_over (j : job) : bool :=
  match j_phase j with Written | Broken => true | _ => false end.
Definition job_failed (j : job) : bool :=
  match j_phase j with Broken => true | _ => false end.

Fixpoint new_jobs (u : uuid) (i : nat) (bags : list to_add) : list job :=
  match bags with
  | [] => []
  | b :: bags => Job (BagFile u i) (a_bag b) ToCheck :: new_jobs u (S i) bags
  end.

(** functions/s11n.py:171-179: dump to a new file *)
Definition job_step (w : world) (d : dir) (j : job) : world * job :=
  let p := (d, j_file j) in
  match j_phase j with
  | ToCheck =>
      (w, Job (j_file j) (j_bag j) (if file_exists w p then Broken else ToOpen))
  | ToOpen =>
      (set_files w (put p Partial (w_files w)), Job (j_file j) (j_bag j) ToWrite)
  | ToWrite =>
      (set_files w (put p (BagContent (j_bag j)) (w_files w)),
       Job (j_file j) (j_bag j) Written)
  | Written | Broken => (w, j)
  end.

(** One interaction with the file system of thread [t], whose next task is
    [tk]. [choice] selects the file the thread pool works on, [u] is the result
    of uuid1() if it is called. *)
Definition run_task (w : world) (t : nat) (tk : task) (choice : nat) (u : uuid)
  : world :=
  match tk with
  | Begun => w
  | NewExists d k =>
      if dir_exists w d then goto w t (NewGlob d k) else goto w t (NewMakeDirs d k)
  | NewMakeDirs d k => goto (add_dir w d) t (NewGlob d k)
  | NewGlob d k =>
      if empty_dir w d then goto w t (PersistExists d initial_meta k)
      else raise_ w t DirectoryNotEmpty
  | PersistExists d m k =>
      if file_exists w (d, MetaFile (m_number m)) then raise_ w t AlreadyCommitted
      else goto w t (PersistOpen d m k)
  | PersistOpen d m k =>
      if fresh w u then
        goto
          (set_files (use_uuid w u)
             (put (d, TempFile (m_number m) u) Partial (w_files w)))
          t (PersistWrite d m u k)
      else w
  | PersistWrite d m u k =>
      goto
        (set_files w (put (d, TempFile (m_number m) u) (MetaContent m) (w_files w)))
        t (PersistRename d m u k)
  | PersistRename d m u k =>
      if file_exists w (d, MetaFile (m_number m)) then raise_ w t FileExists
      else if atomic then
        committed
          (set_files w
             (move (d, TempFile (m_number m) u) (d, MetaFile (m_number m))
                (w_files w)))
          t d m k
      else goto w t (PersistRenameNow d m u k)
  | PersistRenameNow d m u k =>
      committed
        (set_files w
           (move (d, TempFile (m_number m) u) (d, MetaFile (m_number m))
              (w_files w)))
        t d m k
  | FromExists d =>
      if dir_exists w d then goto w t (FromGlob d) else raise_ w t NoDirectory
  | FromGlob d =>
      if empty_dir w d then raise_ w t NoDirectory else goto w t (FromLatest d)
  | FromLatest d =>
      match latest_name (w_files w) d with
      | None => raise_ w t NoMetadata
      | Some f => goto w t (FromRead d f)
      end
  | FromRead d f =>
      match look (w_files w) (d, f) with
      | Some (MetaContent m) => return_manager w t (Manager d m)
      | _ => raise_ w t ReadError
      end
  | AddStart g bags k =>
      if fresh w u then
        goto (use_uuid w u) t (Writing g bags u (new_jobs u 0 bags) k)
      else w
  | Writing g bags u jobs k =>
      if forallb job_over jobs then
        if existsb job_failed jobs then raise_ w t IoError
        else
          goto w t (PersistExists (g_dir g) (extended_meta (g_meta g) u bags) k)
      else
        match nth_error jobs choice with
        | None => w
        | Some j =>
            let (w, j) := job_step w (g_dir g) j in
            goto w t (Writing g bags u (replace_nth choice j jobs) k)
        end
  | Loading g todo loaded p =>
      match todo with
      | [] => all_loaded w t g loaded p
      | s :: todo =>
          match bag_filepath g s with
          | None => raise_ w t KeyError
          | Some q =>
              match look (w_files w) q with
              | Some (BagContent b) =>
                  let pr := process_of t in
                  let (c, b) := cache_set (w_caches w pr) (s, q) b in
                  let w := set_cache w pr c in
                  let loaded := loaded ++ [(s, b)] in
                  match todo with
                  | [] => all_loaded w t g loaded p
                  | _ => goto w t (Loading g todo loaded p)
                  end
              | _ => raise_ w t ReadError
              end
          end
      end
  | OutExists d o =>
      if dir_exists w d then goto w t (OutGlob d o) else goto w t (OutMakeDirs d o)
  | OutMakeDirs d o => goto (add_dir w d) t (OutGlob d o)
  | OutGlob d o =>
      if empty_dir w d then output_ready w t d o
      else raise_ w t DirectoryNotEmpty
  end.

(** The next interaction of the thread raises: a full disk, a lost connection.
    In the thread pool this only concerns one file. *)
Definition fail_task (w : world) (t : nat) (tk : task) (choice : nat) : world :=
  match tk with
  | Writing g bags u jobs k =>
      match nth_error jobs choice with
      | Some j =>
          if job_over j then w
          else
            goto w t
              (Writing g bags u
                 (replace_nth choice (Job (j_file j) (j_bag j) Broken) jobs) k)
      | None => w
      end
  | _ => raise_ w t IoError
  end.

Inductive event :=
| Start (t : nat) (c : call)
| Run (t : nat) (choice : nat) (u : uuid)
| Fail (t : nat) (choice : nat)
| Stop (t : nat)
| Evict (p : nat) (keep : string * path -> bool).

Definition step (w : world) (ev : event) : world :=
  match ev with
  | Start t c =>
      match running (w_threads w t) with
      | None => begin_ w t c
      | Some _ => w
      end
  | Run t choice u =>
      match running (w_threads w t) with
      | None => w
      | Some (_, tk) => run_task w t tk choice u
      end
  | Fail t choice =>
      match running (w_threads w t) with
      | None => w
      | Some (_, tk) => fail_task w t tk choice
      end
  | Stop t => set_thread w t (Thread [] None Nothing)
  | Evict p keep =>
      set_cache w p (filter (fun x => keep (fst x)) (w_caches w p))
  end.

Definition run (w : world) (evs : list event) : world := fold_left step evs w.

Definition start : world :=
  World [] [] [] (fun _ => Thread [] None Nothing) (fun _ => []) [].

End Store.
