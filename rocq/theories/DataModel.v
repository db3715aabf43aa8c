(** * Generation of mock data (upsi/util/data_util.cc)

    Sizes are uint32 values ([Z] in [0, 2^32)); strings are lists of character
    codes.  A thrown exception is [Abort]; an access outside a vector, an
    overflow of a signed integer and a division by zero are [UB]. *)
Require Import List Arith Lia ZArith Bool.
Import ListNotations.
From Verif Require Import Prelude FlagModel BytesModel Coins WireModel CsvModel.
Local Open Scope Z_scope.

Definition u32 (x : Z) : Z := x mod 2 ^ 32.
Definition same_string (a b : bytes) : bool := if list_eq_dec Z.eq_dec a b then true else false.
(** std::set / std::map count *)
Definition has (l : list bytes) (s : bytes) : bool := existsb (same_string s) l.
(** [v[i]] *)
Definition vat {A} (l : list A) (i : nat) : outcome A := match nth_error l i with Some a => Ok a | None => UB end.
(** [v[i], ..., v[i + n - 1]] *)
Definition slice {A} (l : list A) (i n : nat) : outcome (list A) := omap (vat l) (seq i n).

(** ** GenerateAddOnlySets, data_util.cc:223-300 *)
(** the values of [set] and the expected sum, data_util.cc:269-277 *)
Fixpoint add_values (max : Z) (p1 set : list bytes) (sum : Z) : M (list Z * Z) :=
  match set with
  | [] => ret ([], sum)
  | s :: r =>
      v <- rand_less_than max ;;
      sum' <- (if has p1 s then lift (if sum + v <? 2 ^ 63 then Ok (sum + v) else UB) else ret sum) ;;
      '(vs, total) <- add_values max p1 r sum' ;;
      ret (v :: vs, total)
  end.
(** [n] rows from position [i] on, for party zero (with values) and party one
    (without), data_util.cc:279-285 and 289-294 *)
Definition add_rows (p0 p1 : list bytes) (vs : list Z) (i n : nat) : outcome (dataset * dataset) :=
  let! e0 := slice p0 i n in let! e1 := slice p1 i n in let! v0 := slice vs i n in
  Ok (mkDataset e0 v0, mkDataset e1 []).
(** data_util.cc:287-297 *)
Fixpoint add_days (days : nat) (p0 p1 : list bytes) (vs : list Z) (i n : nat) : outcome (list (dataset * dataset)) :=
  match days with
  | O => Ok []
  | S d => let! x := add_rows p0 p1 vs i n in let! r := add_days d p0 p1 vs (i + n) n in Ok (x :: r)
  end.
Definition generate_add_only (days daily start shared max : Z)
  : M (dataset * list dataset * dataset * list dataset * Z) :=
  let total := u32 (start + u32 (days * daily)) in
  if total <? shared then lift Abort else
  if (0 <? max) && ((2 ^ 63 - 1) / max <? shared) then lift Abort else
  intersection <- repeatM (A := bytes) (Z.to_nat shared) random_set_element ;;
  rest <- repeatM (A := bytes * bytes) (Z.to_nat (total - shared)) (a <- random_set_element ;; b <- random_set_element ;; ret (a, b)) ;;
  p0 <- shuffle (A := bytes) (intersection ++ map fst rest) ;;
  p1 <- shuffle (A := bytes) (intersection ++ map snd rest) ;;
  '(vs, sum) <- add_values max p1 p0 0 ;;
  '(tree0, tree1) <- lift (add_rows p0 p1 vs 0 (Z.to_nat start)) ;;
  ds <- lift (add_days (Z.to_nat days) p0 p1 vs (Z.to_nat start) (Z.to_nat daily)) ;;
  ret (tree0, map fst ds, tree1, map snd ds, sum).

(** ** std::map<std::string, int64_t>

    Unordered here: the order only decides which entry an index drawn by
    [sample] denotes. *)
Definition row := (bytes * Z)%type.
(** [map[key] = value] *)
Fixpoint map_set (m : list row) (k : bytes) (v : Z) : list row :=
  match m with
  | [] => [(k, v)]
  | (k', v') :: r => if same_string k k' then (k, v) :: r else (k', v') :: map_set r k v
  end.
(** sample, data_util.cc:308-320; the index is drawn as an [int] *)
Definition sample (m : list row) : M (row * list row) :=
  match m with
  | [] => lift Abort
  | r0 :: _ =>
      if 2 ^ 31 <? Z.of_nat (length m) then lift UB else
      i <- rand_less_than (Z.of_nat (length m)) ;;
      let k := Z.to_nat i in
      ret (nth k m r0, firstn k m ++ skipn (S k) m)
  end.

(** ** GenerateDeletionDays, data_util.cc:323-370 *)
(** deletions, data_util.cc:335-341: at most [n], while there is something to delete *)
Fixpoint delete_rows (n : nat) (current : list row) : M (list row * list row) :=
  match n, current with
  | O, _ => ret ([], current)
  | _, [] => ret ([], current)
  | S k, _ =>
      '(e, current) <- sample current ;;
      '(rows, current) <- delete_rows k current ;;
      ret ((fst e, - snd e) :: rows, current)
  end.
(** additions, data_util.cc:344-349 and 361-366 *)
Fixpoint insert_rows (n : nat) (universe current : list row) : M (list row * list row * list row) :=
  match n with
  | O => ret ([], universe, current)
  | S k =>
      '(e, universe) <- sample universe ;;
      '(rows, universe, current) <- insert_rows k universe (map_set current (fst e) (snd e)) ;;
      ret (e :: rows, universe, current)
  end.
Fixpoint deletion_loop (days daily daily_del : nat) (universe current : list row)
  : M (list (list row) * list row * list row) :=
  match days with
  | O => ret ([], universe, current)
  | S d =>
      '(dels, current) <- delete_rows daily_del current ;;
      '(adds, universe, current) <- insert_rows (daily - length dels) universe current ;;
      '(rest, universe, current) <- deletion_loop d daily daily_del universe current ;;
      ret ((dels ++ adds) :: rest, universe, current)
  end.
Definition deletion_days (daily daily_del total : Z) (universe current : list row)
  : M (list (list row) * list row * list row) :=
  if daily =? 0 then lift UB else
  '(ds, universe, current) <- deletion_loop (Z.to_nat (total / daily)) (Z.to_nat daily) (Z.to_nat daily_del) universe current ;;
  let ds := match ds with [] => [[]] | _ => ds end in
  '(extra, universe, current) <- insert_rows (Z.to_nat (total - total / daily * daily)) universe current ;;
  ret (match ds with d :: r => (d ++ extra) :: r | [] => [] end, universe, current).

(** ** GenerateDeletionSets, data_util.cc:374-469 *)
(** the value of an element of party zero, data_util.cc:398-408 and 414-426 *)
Definition value_of (f : functionality) (max : Z) (e : bytes) : M Z :=
  match f with
  | CA => ret 1
  | SUM => rand_between 1 max
  | PSI => lift (stoll e)
  | SS | DEL => lift Abort
  end.
(** data_util.cc:396-410 *)
Fixpoint shared_universe (n : nat) (f : functionality) (max : Z) (u0 u1 : list row) : M (list row * list row) :=
  match n with
  | O => ret (u0, u1)
  | S k => e <- random_set_element ;; v <- value_of f max e ;;
           shared_universe k f max (map_set u0 e v) (map_set u1 e 1)
  end.
(** data_util.cc:413-428 (the order in which an element and its value are drawn
    is irrelevant) *)
Fixpoint own_universe (n : nat) (f : functionality) (max : Z) (u0 u1 : list row) : M (list row * list row) :=
  match n with
  | O => ret (u0, u1)
  | S k => e <- random_set_element ;; v <- value_of f max e ;; e' <- random_set_element ;;
           own_universe k f max (map_set u0 e v) (map_set u1 e' 1)
  end.
(** data_util.cc:430-442 *)
Fixpoint start_rows (n : nat) (u0 u1 s0 s1 : list row) : M (list row * list row * list row * list row * list row * list row) :=
  match n with
  | O => ret ([], [], u0, u1, s0, s1)
  | S k =>
      '(e0, u0) <- sample u0 ;;
      '(e1, u1) <- sample u1 ;;
      '(t0, t1, u0, u1, s0, s1) <- start_rows k u0 u1 (map_set s0 (fst e0) (snd e0)) (map_set s1 (fst e1) (snd e1)) ;;
      ret (e0 :: t0, e1 :: t1, u0, u1, s0, s1)
  end.
(** data_util.cc:444-450 and 460-466, in uint64 arithmetic *)
Definition u64 (x : Z) : Z := x mod 2 ^ 64.
Fixpoint expected (f : functionality) (s0 s1 : list row) (sum : Z) : Z :=
  match s0 with
  | [] => sum
  | (e, v) :: r => expected f r s1 (if has (map fst s1) e then u64 (sum + match f with PSI => 1 | _ => v end) else sum)
  end.
(** conversion of the uint64 difference to int64 *)
Definition to_int64 (x : Z) : Z := if x <? 2 ^ 63 then x else x - 2 ^ 64.
Definition to_dataset (rows : list row) : dataset := mkDataset (map fst rows) (map snd rows).
Definition generate_deletion (days daily start max : Z) (f : functionality)
  : M (dataset * list dataset * dataset * list dataset * Z) :=
  let total := u32 (start + u32 (days * daily)) in
  let daily_del := daily / 4 in
  '(u0, u1) <- shared_universe (Z.to_nat (total / 3)) f max [] [] ;;
  '(u0, u1) <- own_universe (Z.to_nat (total - total / 3)) f max u0 u1 ;;
  '(t0, t1, u0, u1, s0, s1) <- start_rows (Z.to_nat start) u0 u1 [] [] ;;
  let initial_sum := expected f s0 s1 0 in
  '(d0, _, s0) <- deletion_days daily daily_del (u32 (daily * days)) u0 s0 ;;
  '(d1, _, s1) <- deletion_days daily daily_del (u32 (daily * days)) u1 s1 ;;
  let sum := expected f s0 s1 0 in
  ret (to_dataset t0, map to_dataset d0, to_dataset t1, map to_dataset d1, to_int64 (u64 (sum - initial_sum))).
