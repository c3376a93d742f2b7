(** The file system as the store sees it, and operations as trees of micro effects.

    A shard file ([struct ShardHeader], src/shard.rs:110-119, followed by the data area)
    is modelled by its header fields, its 64 rows of 512 slots, and the bytes of the data
    area (offsets relative to HEADER_SIZE).  The mmap and the file are one object, as with
    MAP_SHARED on one machine.

    Simplifications: one name per inode is not enforced here (it is an invariant);
    the effects always succeed (failing system calls are added in Faults.v); hard links,
    permissions and directories are not modelled. *)
From Verif Require Import Base.

(** One (signature, descriptor) pair of a row: shard.rs:40-43. *)
Record slot := Slot { s_sig : N; s_desc : N }.
Definition slot0 : slot := Slot 0 0.

Record file := File {
  f_len : N;                     (* size of the file in bytes *)
  f_magic : bytes;               (* MetaHeader.magic, shard.rs:106 *)
  f_version : N;                 (* MetaHeader.version, shard.rs:107 *)
  f_wasted : N;                  (* shard.rs:113 *)
  f_woff : N;                    (* write_offset, shard.rs:114 *)
  f_ins : N;                     (* num_inserts, shard.rs:115 *)
  f_rem : N;                     (* num_removals, shard.rs:116 *)
  f_cut : nat;                   (* compacted_up_to, shard.rs:117 *)
  f_rows : list (list slot);     (* rows, shard.rs:118 *)
  f_data : gmap N byte           (* bytes from HEADER_SIZE on; absent = 0 *)
}.

(** A file that was just created or truncated to 0: everything reads as zero. *)
Definition file_empty : file :=
  File 0 (replicate 8 x00) 0 0 0 0 0 0
       (replicate NUM_ROWS (replicate ROW_WIDTH slot0)) ∅.

Definition ino := N.

(** File names in the store directory (see Names.v for the actual strings). *)
Inductive fname :=
| FShard (s e : N)     (* shard_{:04x}-{:04x} *)
| FCompact (s e : N)   (* compact_... *)
| FBottom (s e : N)    (* bottom_... *)
| FTop (s e : N)       (* top_... *)
| FMerge (s e : N)     (* merge_... *)
| FOther (n : N).      (* anything else, e.g. ".lock" *)

Global Instance fname_eq_dec : EqDecision fname.
Proof. solve_decision. Defined.

Definition fname_code (n : fname) : N * N * N :=
  match n with
  | FShard s e => (0, s, e) | FCompact s e => (1, s, e) | FBottom s e => (2, s, e)
  | FTop s e => (3, s, e) | FMerge s e => (4, s, e) | FOther n => (5, n, 0)
  end.
Definition fname_decode (c : N * N * N) : option fname :=
  let '(t, s, e) := c in
  match t with
  | 0 => Some (FShard s e) | 1 => Some (FCompact s e) | 2 => Some (FBottom s e)
  | 3 => Some (FTop s e) | 4 => Some (FMerge s e) | 5 => Some (FOther s)
  | _ => None
  end.
Global Program Instance fname_countable : Countable fname :=
  inj_countable fname_code fname_decode _.
Next Obligation. by intros []. Qed.

Record fs := Fs {
  fs_dir : gmap fname ino;
  fs_files : gmap ino file;
  fs_next : ino
}.

Definition fs_empty : fs := Fs ∅ ∅ 0.

(** ** Single updates of one file *)
Inductive fupd :=
| UPut (off : N) (b : byte)            (* one byte of a pwrite *)
| UDesc (r c : nat) (d : N)            (* row.offsets_and_sizes[c] = d *)
| USig (r c : nat) (s : N)             (* row.signatures[c] = s *)
| UIns                                 (* num_inserts.fetch_add(1) *)
| URem                                 (* num_removals.fetch_add(1) *)
| UWaste (n : N)                       (* wasted_bytes.fetch_add(n) *)
| UCut                                 (* compacted_up_to.fetch_add(1) *)
| UCut0                                (* compacted_up_to.store(0) *)
| UTrunc                               (* set_len(0) / O_TRUNC *)
| ULen (n : N)                         (* set_len(n), only used to extend *)
| UFalloc                              (* posix_fallocate(0, HEADER_SIZE) *)
| UMagic                               (* header.metadata.magic = SHARD_FILE_MAGIC *)
| UVersion.                            (* header.metadata.version = SHARD_FILE_VERSION *)

Definition set_slot (rows : list (list slot)) (r c : nat) (g : slot -> slot) : list (list slot) :=
  alter (alter g c) r rows.

Definition apply_fupd (u : fupd) (f : file) : file :=
  match f with
  | File ln mg ver wa wo ins rem cut rows data =>
    match u with
    | UPut off b => File (N.max ln (HEADER_SIZE + off + 1)) mg ver wa wo ins rem cut rows
                         (<[off := b]> data)
    | UDesc r c d => File ln mg ver wa wo ins rem cut
                          (set_slot rows r c (fun s => Slot (s_sig s) d)) data
    | USig r c g => File ln mg ver wa wo ins rem cut
                         (set_slot rows r c (fun s => Slot g (s_desc s))) data
    | UIns => File ln mg ver wa wo (ins + 1) rem cut rows data
    | URem => File ln mg ver wa wo ins (rem + 1) cut rows data
    | UWaste n => File ln mg ver (wa + n) wo ins rem cut rows data
    | UCut => File ln mg ver wa wo ins rem (S cut) rows data
    | UCut0 => File ln mg ver wa wo ins rem 0 rows data
    | UTrunc => file_empty
    | ULen n => File (N.max ln n) mg ver wa wo ins rem cut rows data
    | UFalloc => File (N.max ln HEADER_SIZE) mg ver wa wo ins rem cut rows data
    | UMagic => File ln SHARD_FILE_MAGIC ver wa wo ins rem cut rows data
    | UVersion => File ln mg SHARD_FILE_VERSION wa wo ins rem cut rows data
    end
  end.

(** write_offset.fetch_add(n) *)
Definition alloc_file (n : N) (f : file) : file :=
  match f with
  | File ln mg ver wa wo ins rem cut rows data =>
    File ln mg ver wa (wo + n) ins rem cut rows data
  end.

(** ** Effects *)
Inductive eff : Type -> Type :=
| ESnap : eff fs                                  (* read whatever is needed *)
| EAlloc (i : ino) (n : N) : eff N                (* fetch_add on write_offset, returns the old value *)
| EUpd (i : ino) (u : fupd) : eff unit
| ECreate (n : fname) (trunc : bool) : eff ino    (* open(O_CREAT [| O_TRUNC]) *)
| ERename (a b : fname) : eff bool
| ERemove (a : fname) : eff bool.

Definition run_eff {X} (e : eff X) (w : fs) : fs * X :=
  match e in eff X return fs * X with
  | ESnap => (w, w)
  | EAlloc i n =>
    match fs_files w !! i with
    | Some f => (Fs (fs_dir w) (<[i := alloc_file n f]> (fs_files w)) (fs_next w), f_woff f)
    | None => (w, 0)
    end
  | EUpd i u =>
    (Fs (fs_dir w) (alter (apply_fupd u) i (fs_files w)) (fs_next w), tt)
  | ECreate n trunc =>
    match fs_dir w !! n with
    | Some i =>
      (if trunc then Fs (fs_dir w) (<[i := file_empty]> (fs_files w)) (fs_next w) else w, i)
    | None =>
      let i := fs_next w in
      (Fs (<[n := i]> (fs_dir w)) (<[i := file_empty]> (fs_files w)) (i + 1), i)
    end
  | ERename a b =>
    match fs_dir w !! a with
    | Some i => (Fs (<[b := i]> (delete a (fs_dir w))) (fs_files w) (fs_next w), true)
    | None => (w, false)
    end
  | ERemove a =>
    match fs_dir w !! a with
    | Some _ => (Fs (delete a (fs_dir w)) (fs_files w) (fs_next w), true)
    | None => (w, false)
    end
  end.

(** ** Programs *)
Inductive prog (A : Type) : Type :=
| Ret (a : A)
| Fail (e : err)
| Vis {X} (e : eff X) (k : X -> prog A).
Global Arguments Ret {_} _.
Global Arguments Fail {_} _.
Global Arguments Vis {_ _} _ _.

Fixpoint pbind {A B} (p : prog A) (f : A -> prog B) : prog B :=
  match p with
  | Ret a => f a
  | Fail e => Fail e
  | Vis e k => Vis e (fun x => pbind (k x) f)
  end.
Notation "'do!' x <- a ; b" := (pbind a (fun x => b))
  (at level 200, x pattern, a at level 100, b at level 200, right associativity).

Definition eff1 {X} (e : eff X) : prog X := Vis e Ret.
Definition snap : prog fs := eff1 ESnap.
Definition upd (i : ino) (u : fupd) : prog unit := eff1 (EUpd i u).
Definition lift {A} (r : res A) : prog A :=
  match r with Ok a => Ret a | Err e => Fail e end.
Definition get_file (i : ino) : prog file :=
  do! w <- snap; lift (match fs_files w !! i with Some f => Ok f | None => Err EIo end).
Definition assert_p (b : bool) : prog unit := if b then Ret tt else Fail EPanic.
Definition check (b : bool) (e : err) : prog unit := if b then Ret tt else Fail e.
Definition rename (a b : fname) : prog unit :=
  do! ok <- eff1 (ERename a b); check ok EIo.
Definition remove_file (a : fname) : prog unit :=
  do! ok <- eff1 (ERemove a); check ok EIo.

(** Run to the end: final file system and result. *)
Fixpoint run {A} (p : prog A) (w : fs) : fs * res A :=
  match p with
  | Ret a => (w, Ok a)
  | Fail e => (w, Err e)
  | Vis e k => let '(w', x) := run_eff e w in run (k x) w'
  end.

(** The file system left behind if the process is killed after [n] effects. *)
Fixpoint crash_at {A} (n : nat) (p : prog A) (w : fs) : fs :=
  match n with
  | O => w
  | S n =>
    match p with
    | Ret _ | Fail _ => w
    | Vis e k => let '(w', x) := run_eff e w in crash_at n (k x) w'
    end
  end.
