(** * Sharded sorting (upsi/util/recordio.cc) and parallel record processing
    (upsi/util/process_record_file_util.h). *)
Require Import List Arith Lia ZArith Bool.
Import ListNotations.
From Verif Require Import Prelude BytesModel CsvModel FileModel.
Local Open Scope Z_scope.

(** std::string's operator<: lexicographic on unsigned characters *)
Fixpoint string_ltb (a b : bytes) : bool :=
  match a, b with
  | _, [] => false
  | [], _ => true
  | x :: a', y :: b' => (x <? y) || ((x =? y) && string_ltb a' b')
  end.
(** conversion to int32_t *)
Definition wrap32 (x : Z) : Z := (x + 2 ^ 31) mod 2 ^ 32 - 2 ^ 31.

Section Keyed.
Context (e : env).
(** the key type T (int64_t or std::string) with its operator< *)
Context {K : Type} (ltb : K -> K -> bool).
(** the key function *)
Context (key : bytes -> K).

(** ** MultiSortedReaderImpl, recordio.cc:155-294 *)
(** struct HeapData, recordio.cc:276-280 *)
Definition entry := (K * bytes * nat)%type.
Definition ekey (x : entry) : K := fst (fst x).
Definition edata (x : entry) : bytes := snd (fst x).
Definition eindex (x : entry) : nat := snd x.
Record multi := mkMulti { readers : list handle; heap : list entry }.
Definition multi_new : multi := mkMulti [] [].

(** recordio.cc:183-195, after the open of reader number i failed.  [last] is
    the last element of readers_, [prev] the ones before it, last first. *)
Fixpoint unwind (last : handle) (prev : list handle) : SM world handle :=
  match prev with
  | [] => sret last
  | h :: r => fun w =>
      match posix_close e (h, w) with
      | ((h', w'), Ok _) | ((h', w'), Err _) =>
          match posix_destroy e (last, w') with
          | ((_, w''), Ok _) => unwind h' r w''
          | ((_, w''), _) => (w'', UB)
          end
      | ((_, w'), _) => (w', UB)
      end
  end.
(** MultiSortedReaderImpl::Open, recordio.cc:174-198; [opened] is readers_,
    last first *)
Fixpoint multi_open_loop (names : list bytes) (opened : list handle) : SM (multi * world) unit :=
  match names with
  | [] => fun '(s, w) => ((mkMulti (rev opened) (heap s), w), Ok tt)
  | n :: ns => fun '(s, w) =>
      match posix_open e n R (Closed, w) with
      | ((h, w'), Ok _) => multi_open_loop ns (h :: opened) (s, w')
      | ((h, w'), Err c) =>
          match unwind h opened w' with
          | (w'', Ok h') => ((mkMulti [h'] (heap s), w''), Err c)
          | (w'', _) => ((s, w''), UB)
          end
      | ((_, w'), _) => ((s, w'), UB)
      end
  end.
Definition multi_open (names : list bytes) : SM (multi * world) unit :=
  fun '(s, w) => match readers s with
                 | [] => multi_open_loop names [] (s, w)
                 | _ => ((s, w), Err Internal)
                 end.
(** MultiSortedReaderImpl::Close, recordio.cc:200-219: std::all_of stops at the
    first reader that cannot be closed *)
Fixpoint close_all (hs : list handle) : SM world (list handle * outcome unit) :=
  match hs with
  | [] => sret ([], Ok tt)
  | h :: r => fun w =>
      match posix_close e (h, w) with
      | ((h', w'), Ok _) =>
          match close_all r w' with
          | (w'', Ok (r', o)) => (w'', Ok (h' :: r', o))
          | (w'', _) => (w'', UB)
          end
      | ((h', w'), Err c) => (w', Ok (h' :: r, Err c))
      | ((_, w'), _) => (w', UB)
      end
  end.
Definition multi_close : SM (multi * world) unit :=
  fun '(s, w) =>
    match close_all (readers s) w with
    | (w', Ok (_, Ok _)) => ((multi_new, w'), Ok tt)
    | (w', Ok (hs, o)) => ((mkMulti hs (heap s), w'), o)
    | (w', _) => ((s, w'), UB)
    end.
(** the loop of MultiSortedReaderImpl::HasMore, recordio.cc:226-235 *)
Fixpoint any_more (hs : list handle) (status : outcome bool) : SM world (list handle * outcome bool) :=
  match hs with
  | [] => sret ([], status)
  | h :: r => fun w =>
      match posix_has_more e (h, w) with
      | ((h', w'), Ok true) => (w', Ok (h' :: r, Ok true))
      | ((h', w'), o) =>
          match o with
          | Ok _ | Err _ =>
              match any_more r (match o with Err c => Err c | _ => status end) w' with
              | (w'', Ok (r', o')) => (w'', Ok (h' :: r', o'))
              | (w'', _) => (w'', UB)
              end
          | _ => (w', UB)
          end
      end
  end.
(** MultiSortedReaderImpl::HasMore, recordio.cc:221-241 *)
Definition multi_has_more : SM (multi * world) bool :=
  fun '(s, w) =>
    match heap s with
    | [] => match any_more (readers s) (Ok false) w with
            | (w', Ok (hs, o)) => ((mkMulti hs (heap s), w'), o)
            | (w', _) => ((s, w'), UB)
            end
    | _ => ((s, w), Ok true)
    end.
Definition on_reader {A} (i : nat) (m : SM (handle * world) A) : SM (multi * world) A :=
  fun '(s, w) =>
    match nth_error (readers s) i with
    | None => ((s, w), UB)
    | Some h => let '((h', w'), r) := m (h, w) in ((mkMulti (set_nth i h' (readers s)) (heap s), w'), r)
    end.
(** ReadHeapDataFromReader, recordio.cc:259-274; where the queue keeps an entry
    does not matter, see [pop] *)
Definition refill (i : nat) : SM (multi * world) unit :=
  hm <-- on_reader i (posix_has_more e) ;;
  if hm : bool then
    d <-- on_reader i (record_read e) ;;
    (fun '(s, w) => ((mkMulti (readers s) (heap s ++ [(key d, d, i)]), w), Ok tt))
  else sret tt.
(** std::priority_queue with HeapDataGreater, recordio.cc:282-293: some entry
    with the least key.  The environment chooses which: the first one after a
    rotation. *)
Fixpoint take_min (x : entry) (l : list entry) : entry * list entry :=
  match l with
  | [] => (x, [])
  | y :: r => if ltb (ekey y) (ekey x)
              then let '(m, r') := take_min y r in (m, x :: r')
              else let '(m, r') := take_min x r in (m, y :: r')
  end.
Definition pop (t : nat) (h : list entry) : option (entry * list entry) :=
  let k := (t mod length h)%nat in
  match skipn k h ++ firstn k h with [] => None | x :: r => Some (take_min x r) end.
(** MultiSortedReaderImpl::Read, recordio.cc:245-256 *)
Definition multi_read : SM (multi * world) (bytes * nat) :=
  (fun '(s, w) => match heap s with
                  | [] => each refill (seq 0 (length (readers s))) (s, w)
                  | _ => ((s, w), Ok tt)
                  end) ;;;
  x <-- (fun '(s, w) => match pop (tie e (tick w)) (heap s) with
                        | None => ((s, w), UB)
                        | Some (x, r) => ((mkMulti (readers s) r, w), Ok x)
                        end) ;;
  refill (eindex x) ;;; sret (edata x, eindex x).

(** ** ShardingWriterImpl, recordio.cc:411-538 *)
Record sharder := mkSharder {
  sw_handle : handle;          (* record_writer_ *)
  sw_prefix : bytes;           (* fnames_prefix_ *)
  sw_max : Z;                  (* max_bytes_ *)
  sw_cache : list bytes;
  sw_bytes : Z;                (* bytes_written_ *)
  sw_idx : Z;                  (* current_file_idx_ *)
  sw_name : bytes;             (* current_fname_ *)
  sw_shards : list bytes;      (* shard_files_ *)
  sw_healthy : bool;
  sw_open : bool
}.
(** GetFilename, recordio.cc:407-409 *)
Definition shard_name (prefix : bytes) (idx : Z) : bytes := prefix ++ dec_nat idx.
(** recordio.cc:418-431 *)
Definition sharder_new (max : Z) : sharder := mkSharder Closed [] max [] 0 0 [] [] true false.
(** SetShardPrefix, recordio.cc:433-438 *)
Definition set_shard_prefix (p : bytes) (s : sharder) : sharder :=
  mkSharder (sw_handle s) p (sw_max s) (sw_cache s) (sw_bytes s) (sw_idx s) (shard_name p (sw_idx s))
            (sw_shards s) (sw_healthy s) true.
Definition set_handle (h : handle) (s : sharder) : sharder :=
  mkSharder h (sw_prefix s) (sw_max s) (sw_cache s) (sw_bytes s) (sw_idx s) (sw_name s) (sw_shards s) (sw_healthy s) (sw_open s).
Definition unhealthy (s : sharder) : sharder :=
  mkSharder (sw_handle s) (sw_prefix s) (sw_max s) (sw_cache s) (sw_bytes s) (sw_idx s) (sw_name s) (sw_shards s) false (sw_open s).
Definition set_cache (c : list bytes) (s : sharder) : sharder :=
  mkSharder (sw_handle s) (sw_prefix s) (sw_max s) c (sw_bytes s) (sw_idx s) (sw_name s) (sw_shards s) (sw_healthy s) (sw_open s).
Definition on_writer {A} (m : SM (handle * world) A) : SM (sharder * world) A :=
  fun '(s, w) => let '((h, w'), r) := m (sw_handle s, w) in ((set_handle h s, w'), r).
(** std::list::sort (stable) with the comparison of the keys, recordio.cc:480-482 *)
Fixpoint insert (x : bytes) (l : list bytes) : list bytes :=
  match l with
  | [] => [x]
  | y :: r => if ltb (key y) (key x) then y :: insert x r else x :: y :: r
  end.
Fixpoint key_sort (l : list bytes) : list bytes :=
  match l with [] => [] | x :: r => insert x (key_sort r) end.
(** the loop of WriteCacheToFile, recordio.cc:489-497: stops at the first record
    that cannot be written *)
Fixpoint write_shard (l : list bytes) : SM (sharder * world) unit :=
  match l with
  | [] => sret tt
  | d :: r => o <-- scatch (on_writer (record_write e d)) ;;
              match o with
              | Ok _ => write_shard r
              | _ => fun '(s, w) => ((unhealthy s, w), Err Internal)
              end
  end.
(** WriteCacheToFile, recordio.cc:477-514; the file index is an int32_t *)
Definition write_cache_to_file : SM (sharder * world) unit :=
  fun '(s, w) =>
    if negb (sw_healthy s) then ((s, w), Err Internal) else
    match sw_cache s with
    | [] => ((s, w), Ok tt)
    | c =>
      (o <-- scatch (on_writer (posix_open e (sw_name s) FileModel.W)) ;;
       match o with
       | Ok _ =>
           o1 <-- scatch (write_shard (key_sort c)) ;;
           o2 <-- scatch (on_writer (posix_close e)) ;;
           let status := match o1, o2 with Ok _, Err _ => Err Internal | _, _ => o1 end in
           fun '(s, w) =>
             if sw_idx s + 1 <? 2 ^ 31 then
               ((mkSharder (sw_handle s) (sw_prefix s) (sw_max s) [] 0 (sw_idx s + 1)
                           (shard_name (sw_prefix s) (sw_idx s + 1)) (sw_shards s ++ [sw_name s])
                           (sw_healthy s) (sw_open s), w), status)
             else ((s, w), UB)
       | _ => fun '(s, w) => ((unhealthy s, w), Err Internal)
       end) (set_cache (key_sort c) s, w)
    end.
(** ShardingWriterImpl::Write, recordio.cc:460-474.  The whole body runs under
    the mutex: concurrent calls take effect one after the other. *)
Definition shard_write (d : bytes) : SM (sharder * world) unit :=
  fun '(s, w) =>
    if negb (sw_open s) then ((s, w), Err Internal) else
    if negb (sw_healthy s) then ((s, w), Err Internal) else
    ((fun '(s, w) => if sw_max s <? sw_bytes s then write_cache_to_file (s, w) else ((s, w), Ok tt)) ;;;
     (fun '(s, w) =>
        ((mkSharder (sw_handle s) (sw_prefix s) (sw_max s) (sw_cache s ++ [d])
                    (wrap32 (sw_bytes s + Z.of_nat (length d))) (sw_idx s) (sw_name s) (sw_shards s)
                    (sw_healthy s) (sw_open s), w), Ok tt))) (s, w).
(** ShardingWriterImpl::Close and TryClose, recordio.cc:440-456, 516-524 *)
Definition shard_close : SM (sharder * world) (list bytes) :=
  fun '(s, w) =>
    let reset s := mkSharder (sw_handle s) [] (sw_max s) [] 0 0 [] [] true false in
    if negb (sw_open s) then ((reset s, w), Err Internal) else
    match write_cache_to_file (s, w) with
    | ((s', w'), Ok _) => ((reset s', w'), Ok (sw_shards s'))
    | ((s', w'), Err c) => ((reset s', w'), Err c)
    | ((s', w'), Abort) => ((s', w'), Abort)
    | ((s', w'), UB) => ((s', w'), UB)
    end.

(** ** ShardMerger, recordio.cc:560-606 *)
Definition in_multi {A} (m : SM (multi * world) A) : SM (multi * handle * world) A :=
  fun '(s, h, w) => let '((s', w'), r) := m (s, w) in ((s', h, w'), r).
Definition in_writer {A} (m : SM (handle * world) A) : SM (multi * handle * world) A :=
  fun '(s, h, w) => let '((h', w'), r) := m (h, w) in ((s, h', w'), r).
(** [HasMore().value()]: aborts on an error *)
Definition value {S A} (m : SM S A) : SM S A :=
  fun s => match m s with (s', Err _) => (s', Abort) | r => r end.
(** recordio.cc:586-589; [fuel] bounds the number of records *)
Fixpoint merge_loop (fuel : nat) : SM (multi * handle * world) unit :=
  match fuel with
  | O => sfail UB
  | S f =>
      hm <-- value (in_multi multi_has_more) ;;
      if hm : bool then
        d <-- in_multi multi_read ;; in_writer (record_write e (fst d)) ;;; merge_loop f
      else sret tt
  end.
(** every record not yet merged takes a byte of a shard or is in the heap *)
Definition multi_size (s : multi) : nat :=
  (length (heap s) + list_sum (map handle_size (readers s)))%nat.
(** ShardMerger::Merge, recordio.cc:565-595 *)
Definition merge (shards : list bytes) (out : bytes) : SM (multi * handle * world) unit :=
  (match shards with
   | [] => in_writer (posix_open e out FileModel.W) ;;; in_writer (posix_close e)
   | _ => sret tt
   end) ;;;
  in_multi (multi_open shards) ;;;
  in_writer (posix_open e out FileModel.W) ;;;
  (fun '(s, h, w) => merge_loop (S (multi_size s)) (s, h, w)) ;;;
  in_writer (posix_close e) ;;;
  in_multi multi_close.
(** ShardMerger::Delete, recordio.cc:597-604 *)
Definition delete_shards (shards : list bytes) : SM world unit := each (delete_file e) shards.
End Keyed.

(** ** ProcessRecordFile, process_record_file_util.h:46-126 *)
Section Process.
Context (e : env).
(** InputType and OutputType; FromString, record_transformer (a function that
    returns a status and does not depend on the order of its calls), ToString *)
Context {I T : Type} (parse : bytes -> I) (f : I -> outcome T) (ser : T -> bytes).
(** get_sorting_key_function *)
Context (key : bytes -> bytes).
(** params *)
Context (chunk_size threads : nat).

(** a thread of lines 90-101: the position of the next record, the end of its
    part, what it has computed; or its result *)
Inductive thread :=
| Running (i fin : nat) (acc : list T)
| Finished (r : outcome (list T)).
(** One step of a thread, with the record it calls the transformer on.
    chunk.at(i) throws outside the chunk. *)
Definition thread_step (chunk : list I) (t : thread) : thread * list I :=
  match t with
  | Finished _ => (t, [])
  | Running i fin acc =>
      if (i <? fin)%nat then
        match nth_error chunk i with
        | None => (Finished Abort, [])
        | Some x => (match f x with
                     | Ok y => Running (S i) fin (acc ++ [y])
                     | Err c => Finished (Err c)
                     | Abort => Finished Abort
                     | UB => Finished UB
                     end, [x])
        end
      else (Finished (Ok acc), [])
  end.
(** the threads make steps in the order of the schedule *)
Fixpoint run_threads (chunk : list I) (order : list nat) (ts : list thread) (calls : list I) : list thread * list I :=
  match order with
  | [] => (ts, calls)
  | j :: r => match nth_error ts j with
              | None => run_threads chunk r ts calls
              | Some t => let '(t', c) := thread_step chunk t in run_threads chunk r (set_nth j t' ts) (calls ++ c)
              end
  end.
(** future.get() and the destructor of a future wait for the thread: all
    threads run to their ends *)
Definition wait_steps (chunk : list I) : list nat :=
  flat_map (fun j => repeat j (S (length chunk))) (seq 0 threads).
Definition result_of (t : thread) : outcome (list T) := match t with Finished r => r | Running _ _ _ => UB end.
(** lines 79-102: the results of the threads, and all calls of the transformer *)
Definition start_threads (chunk : list I) : list thread :=
  let n := length chunk in
  let per := ((n + threads - 1) / threads)%nat in
  map (fun j => Running (j * per) (Nat.min ((j + 1) * per) n) []) (seq 0 threads).
Definition parallel (order : list nat) (chunk : list I) : list (outcome (list T)) * list I :=
  let '(ts, calls) := run_threads chunk (order ++ wait_steps chunk) (start_threads chunk) [] in
  (map result_of ts, calls).

(** the local variables of the function: reader and writer, the number of the
    chunk, and, for the specification, the calls of the transformer *)
Record locals := mkLocals { l_reader : handle; l_writer : sharder; l_chunk : nat; l_calls : list I }.
Definition in_reader {A} (m : SM (handle * world) A) : SM (locals * world) A :=
  fun '(l, w) => let '((h, w'), r) := m (l_reader l, w) in ((mkLocals h (l_writer l) (l_chunk l) (l_calls l), w'), r).
Definition in_sharder {A} (m : SM (sharder * world) A) : SM (locals * world) A :=
  fun '(l, w) => let '((s, w'), r) := m (l_writer l, w) in ((mkLocals (l_reader l) s (l_chunk l) (l_calls l), w'), r).
Definition set_prefix (p : bytes) : SM (sharder * world) unit := fun '(s, w) => ((set_shard_prefix p s, w), Ok tt).
(** lines 69-77; [left] is data_chunk_size - num_records_read *)
Fixpoint read_chunk (left : nat) (has_more : bool) : SM (handle * world) (list I * bool) :=
  match left with
  | O => sret ([], has_more)
  | S n => if has_more then
             d <-- record_read e ;; hm <-- posix_has_more e ;;
             r <-- read_chunk n hm ;; sret (parse d :: fst r, snd r)
           else sret ([], has_more)
  end.
(** lines 107-113 *)
Definition write_results (rs : list (outcome (list T))) : SM (sharder * world) unit :=
  each (fun r => match r with
                 | Ok ys => each (fun y => shard_write e string_ltb key (ser y)) ys
                 | Err c => sfail (Err c)
                 | Abort => sfail Abort
                 | UB => sfail UB
                 end) rs.
(** lines 68-114; [fuel] bounds the number of chunks ([UB]: the loop does not
    end).  Line 81 divides by the number of threads. *)
Fixpoint chunk_loop (fuel : nat) (out : bytes) (has_more : bool) : SM (locals * world) unit :=
  if has_more then
    match fuel with
    | O => sfail UB
    | S n =>
        c <-- in_reader (read_chunk chunk_size has_more) ;;
        if (threads =? 0)%nat then sfail UB else
        rs <-- (fun '(l, w) =>
                  let '(rs, calls) := parallel (sched e (l_chunk l)) (fst c) in
                  ((mkLocals (l_reader l) (l_writer l) (S (l_chunk l)) (l_calls l ++ calls), w), Ok rs)) ;;
        in_sharder (set_prefix out ;;; write_results rs) ;;;
        chunk_loop n out (snd c)
    end
  else sret tt.
(** lines 55-119 *)
Definition process_shards (inp out : bytes) : SM (locals * world) (list bytes) :=
  in_reader (posix_open e inp R) ;;;
  in_sharder (set_prefix out) ;;;
  hm <-- in_reader (posix_has_more e) ;;
  (fun '(l, w) => chunk_loop (S (handle_size (l_reader l))) out hm (l, w)) ;;;
  in_reader (posix_close e) ;;;
  in_sharder (shard_close e string_ltb key).
(** the file objects of [hs] are destroyed *)
Fixpoint destroy_all (hs : list handle) : SM world unit :=
  match hs with
  | [] => sret tt
  | h :: r => fun w => match posix_destroy e (h, w) with
                       | ((_, w'), Ok _) => destroy_all r w'
                       | ((_, w'), _) => (w', UB)
                       end
  end.
(** line 58: the default of recordio.h:229 *)
Definition default_max_bytes : Z := 209715200.
(** The function: the calls of the transformer, the file system afterwards and
    the status.  All local objects are destroyed on return. *)
Definition process_record_file (inp out : bytes) (w : world) : list I * (world * outcome unit) :=
  let finish {A} (hs : list handle) (w : world) (o : outcome A) : world * outcome unit :=
    match o with
    | Abort => (w, Abort)
    | UB => (w, UB)
    | _ => match destroy_all hs w with
           | (w', Ok _) => (w', match o with Err c => Err c | _ => Ok tt end)
           | (w', _) => (w', UB)
           end
    end in
  let '((l, w1), o) := process_shards inp out (mkLocals Closed (sharder_new default_max_bytes) O [], w) in
  (l_calls l,
   match o with
   | Ok shards =>
       let '((s, h, w2), o2) := (merge e string_ltb key shards out ;;;
                                 (fun '(s, h, w) => let '(w', r) := delete_shards e shards w in ((s, h, w'), r)))
                                (multi_new, Closed, w1) in
       finish (h :: readers s ++ [sw_handle (l_writer l); l_reader l]) w2 o2
   | _ => finish [sw_handle (l_writer l); l_reader l] w1 o
   end).
End Process.
