(** * Files (upsi/util/file_posix.cc), record files and line files
    (upsi/util/recordio.cc), and their use by upsi/util/proto_util.h.

    A file system is a map from names to contents.  Every operation on it that
    the operating system carries out may fail; the [env]ironment says which
    ones do, and theorems quantify over all environments.

    Simplifications: a reader works on the content the file had when it was
    opened (the C library reads ahead in blocks); what is written is in the
    file at once (the C library buffers it until the file is closed), so an
    unfinished or failed write leaves some prefix.  The two agree unless a file
    is written while it is open for reading.  Names contain no NUL.  A failed
    allocation is not modelled. *)
Require Import List Arith Lia ZArith Bool.
Import ListNotations.
From Verif Require Import Prelude BytesModel.
Local Open Scope Z_scope.

(** ** Stateful computations that may fail and keep their state when they do *)
Definition SM (S A : Type) := S -> S * outcome A.
Definition sret {S A} (a : A) : SM S A := fun s => (s, Ok a).
Definition sfail {S A} (o : outcome A) : SM S A := fun s => (s, o).
(** ASSIGN_OR_RETURN / RETURN_IF_ERROR, util/status_macros.h:20-66 *)
Definition sbind {S A B} (m : SM S A) (f : A -> SM S B) : SM S B :=
  fun s => match m s with
           | (s', Ok a) => f a s'
           | (s', Err c) => (s', Err c)
           | (s', Abort) => (s', Abort)
           | (s', UB) => (s', UB)
           end.
(** a status that is looked at instead of being passed on *)
Definition scatch {S A} (m : SM S A) : SM S (outcome A) :=
  fun s => match m s with
           | (s', Ok a) => (s', Ok (Ok a))
           | (s', Err c) => (s', Ok (Err c))
           | (s', Abort) => (s', Abort)
           | (s', UB) => (s', UB)
           end.
(** the same computation on a part of the state *)
Definition zoom {S T A} (get : S -> T) (put : T -> S -> S) (m : SM T A) : SM S A :=
  fun s => let '(t, r) := m (get s) in (put t s, r).

Declare Scope SM_scope.
Delimit Scope SM_scope with SM.
Notation "x <-- m ;; k" := (sbind m (fun x => k))
  (at level 61, m at next level, right associativity) : SM_scope.
Notation "m ;;; k" := (sbind m (fun _ => k))
  (at level 61, right associativity) : SM_scope.
Open Scope SM_scope.

(** ** The operating system *)
Record env := mkEnv {
  (** whether the n-th operation fails, and if so after how many bytes *)
  fault : nat -> option nat;
  (** which of several entries with the least key a priority queue returns (recordio.cc:251) *)
  tie : nat -> nat;
  (** what protobuf's ReadVarint32 stores in its argument when it fails (recordio.cc:78-79) *)
  junk : Z;
  (** in which order the threads of a chunk make their steps (process_record_file_util.h:86-102) *)
  sched : nat -> list nat
}.
Record world := mkWorld { files : bytes -> option bytes; tick : nat }.

Definition name_eqb (a b : bytes) : bool := if list_eq_dec Z.eq_dec a b then true else false.
Definition upd (fs : bytes -> option bytes) (n : bytes) (c : option bytes) : bytes -> option bytes :=
  fun m => if name_eqb m n then c else fs m.
Definition set_file (w : world) (n : bytes) (c : option bytes) : world := mkWorld (upd (files w) n c) (tick w).
Definition step (w : world) : world := mkWorld (files w) (S (tick w)).
Definition content (w : world) (n : bytes) : bytes := match files w n with Some c => c | None => [] end.

(** ** class PosixFile, file_posix.cc:27-145

    [Closed]: f_ is nullptr.  [Reading rest bad]: open for reading, [rest] not
    read yet, [bad] the error indicator of the stream.  [Dangling]: fclose
    failed, which releases the stream, but f_ was kept (lines 55-59). *)
Inductive handle :=
| Closed
| Reading (rest : bytes) (bad : bool)
| Writing (name : bytes)
| Dangling.
Inductive mode := R | W.

Section Env.
Context (e : env).

(** PosixFile::Open, file_posix.cc:35-48 *)
Definition posix_open (name : bytes) (m : mode) : SM (handle * world) unit :=
  fun '(h, w) =>
    match h with
    | Closed =>
        match fault e (tick w), m with
        | Some _, _ => ((Closed, step w), Err NotFound)
        | None, R => match files w name with
                     | Some c => ((Reading c false, step w), Ok tt)
                     | None => ((Closed, step w), Err NotFound)
                     end
        | None, W => ((Writing name, step (set_file w name (Some []))), Ok tt)
        end
    | _ => ((h, w), Err Internal)
    end.
(** PosixFile::Close, file_posix.cc:50-61.  A file being written may lose its
    end when closing fails. *)
Definition posix_close : SM (handle * world) unit :=
  fun '(h, w) =>
    match h with
    | Closed => ((h, w), Err Internal)
    | Dangling => ((h, w), UB)
    | Reading _ _ => match fault e (tick w) with
                     | Some _ => ((Dangling, step w), Err Internal)
                     | None => ((Closed, step w), Ok tt)
                     end
    | Writing n => match fault e (tick w) with
                   | Some k => ((Dangling, step (set_file w n (Some (firstn k (content w n))))), Err Internal)
                   | None => ((Closed, step w), Ok tt)
                   end
    end.
(** PosixFile::HasMore, file_posix.cc:63-86 *)
Definition posix_has_more : SM (handle * world) bool :=
  fun '(h, w) =>
    match h with
    | Closed => ((h, w), Err Internal)
    | Dangling => ((h, w), UB)
    | Writing _ => ((h, step w), Err Internal)
    | Reading rest bad =>
        if bad then ((h, w), Err Internal) else
        match fault e (tick w) with
        | Some _ => ((Reading rest true, step w), Err Internal)
        | None => ((h, step w), Ok (match rest with [] => false | _ => true end))
        end
    end.
(** PosixFile::Read, file_posix.cc:88-99 *)
Definition posix_read (len : Z) : SM (handle * world) bytes :=
  fun '(h, w) =>
    match h with
    | Closed => ((h, w), Err Internal)
    | Dangling => ((h, w), UB)
    | Writing _ => ((h, step w), Err Internal)
    | Reading rest bad =>
        match fault e (tick w) with
        | Some k => ((Reading (skipn k rest) true, step w), Err Internal)
        | None => if len <=? Z.of_nat (length rest)
                  then ((Reading (skipn (Z.to_nat len) rest) bad, step w), Ok (firstn (Z.to_nat len) rest))
                  else ((Reading [] bad, step w), Err Internal)
        end
    end.
(** fgets(buffer_, LINE_MAX, f_), file_posix.cc:106: at most 2047 characters,
    up to and including the first newline; what is left of the file. *)
Definition line_max : nat := 2048%nat.
Fixpoint fgets (n : nat) (rest : bytes) : bytes * bytes :=
  match n, rest with
  | S k, c :: r => if c =? 10 then ([c], r) else let '(l, r') := fgets k r in (c :: l, r')
  | _, _ => ([], rest)
  end.
(** the characters in front of the first NUL, file_posix.cc:112 *)
Fixpoint until_nul (l : bytes) : bytes :=
  match l with [] => [] | c :: r => if c =? 0 then [] else c :: until_nul r end.
(** file_posix.cc:113-124 *)
Definition strip_newline (l : bytes) : bytes :=
  match rev l with
  | 10 :: 13 :: r => rev r
  | 10 :: r => rev r
  | _ => l
  end.
(** PosixFile::ReadLine, file_posix.cc:101-126 *)
Definition posix_read_line : SM (handle * world) bytes :=
  fun '(h, w) =>
    match h with
    | Closed => ((h, w), Err Internal)
    | Dangling => ((h, w), UB)
    | Writing _ => ((h, step w), Err Internal)
    | Reading rest bad =>
        match fault e (tick w) with
        | Some k => ((Reading (skipn k rest) true, step w), Err Internal)
        | None =>
            match rest with
            | [] => ((h, step w), Err Internal)
            | _ => let '(l, rest') := fgets (line_max - 1) rest in
                   ((Reading rest' bad, step w),
                    if bad then Err Internal else Ok (strip_newline (until_nul l)))
            end
        end
    end.
(** PosixFile::Write, file_posix.cc:128-139 *)
Definition posix_write (d : bytes) : SM (handle * world) unit :=
  fun '(h, w) =>
    match h with
    | Closed => ((h, w), Err Internal)
    | Dangling => ((h, w), UB)
    | Reading _ _ => ((h, step w), Err Internal)
    | Writing n =>
        match fault e (tick w) with
        | Some k => ((h, step (set_file w n (Some (content w n ++ firstn k d)))), Err Internal)
        | None => ((h, step (set_file w n (Some (content w n ++ d)))), Ok tt)
        end
    end.
(** PosixFile::~PosixFile, file_posix.cc:31-33 *)
Definition posix_destroy : SM (handle * world) unit :=
  fun '(h, w) =>
    match h with
    | Closed => ((h, w), Ok tt)
    | Dangling => ((h, w), UB)
    | _ => let '((_, w'), _) := posix_close (h, w) in ((Closed, w'), Ok tt)
    end.
(** DeleteFile, file_posix.cc:159-165 *)
Definition delete_file (n : bytes) : SM world unit :=
  fun w => match fault e (tick w), files w n with
           | None, Some _ => (step (set_file w n None), Ok tt)
           | _, _ => (step w, Err Internal)
           end.
(** RenameFile, file_posix.cc:151-157 *)
Definition rename_file (from to : bytes) : SM world unit :=
  fun w => match fault e (tick w), files w from with
           | None, Some c => (step (set_file (set_file w from None) to (Some c)), Ok tt)
           | _, _ => (step w, Err Internal)
           end.

(** a local std::unique_ptr to a fresh file object, destroyed on every path *)
Definition scoped {A} (m : SM (handle * world) A) : SM world A :=
  fun w => match m (Closed, w) with
           | ((_, w'), Abort) => (w', Abort)
           | ((_, w'), UB) => (w', UB)
           | ((h, w'), r) => match posix_destroy (h, w') with
                             | ((_, w''), Ok _) => (w'', r)
                             | ((_, w''), _) => (w'', UB)
                             end
           end.

(** ** RecordWriterImpl, recordio.cc:297-329 *)
(** protobuf's WriteVarint32: groups of seven bits, least significant first,
    the top bit set on all but the last *)
Fixpoint varint (fuel : nat) (n : Z) : bytes :=
  match fuel with
  | O => [n]
  | S f => if n <? 128 then [n] else (n mod 128 + 128) :: varint f (n / 128)
  end.
Definition frame (d : bytes) : bytes := varint 4 (Z.of_nat (length d)) ++ d.
(** recordio.cc:307-325.  protobuf's WriteString passes the size on as an int:
    with 2^31 bytes or more it is negative, and the copy runs out of bounds. *)
Definition record_write (d : bytes) : SM (handle * world) unit :=
  if 2 ^ 31 <=? Z.of_nat (length d) then sfail UB else posix_write (frame d).

(** ** ExtractVarint32, recordio.cc:46-82 *)
(** lines 51-73; [left] is kMaxVarint32Size - current_byte *)
Fixpoint extract_loop (left : nat) (acc : bytes) (has_more : bool) : SM (handle * world) bytes :=
  match left with
  | O => sret acc
  | S l =>
      if has_more then
        b <-- posix_read 1 ;;
        let acc' := acc ++ b in
        if last acc' 0 <? 128 then sret acc' else
        match l with
        | O => sfail (Err InvalidArgument)
        | _ => hm <-- posix_has_more ;; extract_loop l acc' hm
        end
      else sret acc
  end.
(** protobuf's ReadVarint32 on at most five bytes: [None] if there is no last
    byte (a byte without top bit); 32 bits are kept *)
Fixpoint varint_value (bs : bytes) : option Z :=
  match bs with
  | [] => None
  | b :: r => if b <? 128 then Some b else
              match varint_value r with Some v => Some (b - 128 + 128 * v) | None => None end
  end.
Definition read_varint32 (bs : bytes) : Z :=
  match varint_value bs with Some v => v mod 2 ^ 32 | None => junk e mod 2 ^ 32 end.
Definition extract_varint32 : SM (handle * world) Z :=
  hm <-- posix_has_more ;; bs <-- extract_loop 5 [] hm ;; sret (read_varint32 bs).

(** ** RecordReaderImpl, recordio.cc:85-125 *)
Definition record_read : SM (handle * world) bytes :=
  size <-- extract_varint32 ;; posix_read size.

(** ** LineWriterImpl, recordio.cc:332-349 *)
Definition line_write (l : bytes) : SM (handle * world) unit :=
  posix_write l ;;; posix_write [10].
(** ** LineReader, recordio.cc:128-153 *)
Definition line_read : SM (handle * world) bytes := posix_read_line.

(** ** util/proto_util.h.  A message is its serialisation: [parse] stands for
    ParseFromArray, [ser] for SerializeToOstream. *)
Section Proto.
Context {T : Type} (parse : bytes -> T) (ser : T -> bytes).
(** ReadProtoFromFile, proto_util.h:67-76 *)
Definition read_proto_from_file (name : bytes) : SM world T :=
  scoped (posix_open name R ;;; d <-- record_read ;; posix_close ;;; sret (parse d)).
(** ReadProtosFromFile, proto_util.h:78-93.  [fuel] bounds the number of records *)
Fixpoint read_all (fuel : nat) (has_more : bool) : SM (handle * world) (list bytes) :=
  if has_more then
    match fuel with
    | O => sfail UB
    | S f => d <-- record_read ;; hm <-- posix_has_more ;; ds <-- read_all f hm ;; sret (d :: ds)
    end
  else sret [].
(** every record takes at least one byte *)
Definition handle_size (h : handle) : nat := match h with Reading rest _ => length rest | _ => O end.
Definition read_protos_from_file (name : bytes) : SM world (list T) :=
  scoped (posix_open name R ;;; hm <-- posix_has_more ;;
          ds <-- (fun '(h, w) => read_all (S (handle_size h)) hm (h, w)) ;;
          posix_close ;;; sret (map parse ds)).
(** WriteProtoToFile, proto_util.h:95-101 *)
Definition write_proto_to_file (t : T) (name : bytes) : SM world unit :=
  scoped (posix_open name W ;;; record_write (ser t) ;;; posix_close).
(** a for loop with RETURN_IF_ERROR *)
Fixpoint each {S A : Type} (f : A -> SM S unit) (l : list A) : SM S unit :=
  match l with [] => sret tt | a :: r => f a ;;; each f r end.
(** WriteRecordsToFile, proto_util.h:103-112 *)
Definition write_records_to_file (name : bytes) (l : list T) : SM world unit :=
  scoped (posix_open name W ;;; each (fun t => record_write (ser t)) l ;;; posix_close).
End Proto.
End Env.
