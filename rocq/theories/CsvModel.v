(** * Dataset files (upsi/util/data_util.{h,cc})

    Characters are bytes ([Z] in [0, 256)).  The splitter works in place on a
    NUL-terminated copy of the line, with [char*] cursors: here the copy is a
    list of bytes, a cursor an index, and every access outside the copy is
    [UB].  Opening, reading and writing the file are assumed to succeed; a
    thrown exception is [Abort].  [std::isspace] is taken in the "C" locale. *)
Require Import List Arith Lia ZArith Bool.
Import ListNotations.
From Verif Require Import Prelude BytesModel.
Local Open Scope Z_scope.

Definition quote : Z := 34.
Definition comma : Z := 44.
Definition newline : Z := 10.
(** std::isspace: space, \t \n \v \f \r *)
Definition is_space (c : Z) : bool := (c =? 32) || ((9 <=? c) && (c <=? 13)).

(** ** memory *)
Definition rd (buf : bytes) (i : nat) : outcome Z := match nth_error buf i with Some c => Ok c | None => UB end.
Definition wr (buf : bytes) (i : nat) (c : Z) : outcome bytes := if (i <? length buf)%nat then Ok (set_nth i c buf) else UB.
(** the std::string at a cursor, and strlen: up to the first NUL *)
Fixpoint c_string (l : bytes) : outcome bytes :=
  match l with [] => UB | c :: r => if c =? 0 then Ok [] else let! s := c_string r in Ok (c :: s) end.
Definition string_at (buf : bytes) (i : nat) : outcome bytes := c_string (skipn i buf).
(** strchr(line, delimiter) for a delimiter that is not NUL: [None] is nullptr *)
Fixpoint find_char (l : bytes) (d : Z) : outcome (option nat) :=
  match l with
  | [] => UB
  | c :: r => if c =? d then Ok (Some O) else if c =? 0 then Ok None
              else let! k := find_char r d in Ok (option_map S k)
  end.
Definition strchr (buf : bytes) (i : nat) (d : Z) : outcome (option nat) :=
  let! k := find_char (skipn i buf) d in Ok (option_map (Nat.add i) k).

(** ** SplitCSVLineWithDelimiter, data_util.cc:42-88 *)
(** line 50; [fuel] bounds the number of steps of a loop (here and below): more
    than the size of the buffer *)
Fixpoint skip_spaces (fuel : nat) (buf : bytes) (d : Z) (line : nat) : outcome nat :=
  match fuel with
  | O => UB
  | S f => let! c := rd buf line in
           if is_space c && negb (c =? d) then skip_spaces f buf d (S line) else Ok line
  end.
(** lines 55-62 *)
Fixpoint quoted_loop (fuel : nat) (buf : bytes) (line fin : nat) : outcome (bytes * nat * nat) :=
  match fuel with
  | O => UB
  | S f =>
      let! c := rd buf line in
      if c =? 0 then Ok (buf, line, fin) else
      if c =? quote then
        let! c' := rd buf (S line) in
        if negb (c' =? quote) then Ok (buf, S line, fin) else
        let! buf' := wr buf fin c' in quoted_loop f buf' (S (S line)) (S fin)
      else let! buf' := wr buf fin c in quoted_loop f buf' (S line) (S fin)
  end.
(** lines 72-74 *)
Fixpoint trim_loop (fuel : nat) (buf : bytes) (d : Z) (start fin : nat) : outcome nat :=
  match fuel with
  | O => UB
  | S f => if (start <? fin)%nat
           then let! c := rd buf (fin - 1) in
                if negb (is_space c) || (c =? d) then Ok fin else trim_loop f buf d start (fin - 1)
           else Ok fin
  end.
(** the body of the loop, lines 48-87: new buffer, new [line] (before [line++])
    and the cursors pushed *)
Definition split_step (buf : bytes) (d : Z) (eol line : nat) : outcome (bytes * nat * list nat) :=
  let fuel := S (length buf) in
  let! line := skip_spaces fuel buf d line in
  let! c := rd buf line in
  let! (buf, line, start, fin) :=
    if (c =? quote) && (d =? comma) then
      let start := S line in
      let! (buf, line, fin) := quoted_loop fuel buf start start in
      let! k := strchr buf line d in
      Ok (buf, match k with Some k => k | None => eol end, start, fin)
    else
      let start := line in
      let! k := strchr buf line d in
      let line := match k with Some k => k | None => eol end in
      let! fin := trim_loop fuel buf d start line in
      Ok (buf, line, start, fin) in
  let! c := rd buf line in
  let another := (c =? d) && (S line =? eol)%nat in
  let! buf := wr buf fin 0 in
  Ok (buf, line, start :: (if another then [fin] else [])).
Fixpoint split_loop (fuel : nat) (buf : bytes) (d : Z) (eol line : nat) (cols : list nat) : outcome (bytes * list nat) :=
  match fuel with
  | O => UB
  | S f => if (line <? eol)%nat
           then let! (buf, line, new) := split_step buf d eol line in
                split_loop f buf d eol (S line) (cols ++ new)
           else Ok (buf, cols)
  end.
(** strndup_with_new, data_util.cc:34-40, on [line.c_str()]: bytes after the
    first NUL are copied as NULs *)
Fixpoint until_nul (l : bytes) : bytes := match l with [] => [] | c :: r => if c =? 0 then [] else c :: until_nul r end.
Definition strndup (s : bytes) : bytes := until_nul s ++ repeat 0 (S (length s - length (until_nul s))).
(** SplitCSVLineWithDelimiterForStrings and SplitCsvLine, data_util.cc:90-108:
    the columns become strings after the whole line was split *)
Definition split_with (d : Z) (s : bytes) : outcome (list bytes) :=
  let buf := strndup s in
  let! len := c_string buf in
  let! (buf', cols) := split_loop (S (length buf)) buf d (length len) 0 [] in
  omap (string_at buf') cols.
Definition split_csv_line (s : bytes) : outcome (list bytes) := split_with comma s.

(** EscapeForCsv, data_util.cc:113-115 *)
Definition escape_for_csv (s : bytes) : bytes :=
  quote :: flat_map (fun c => if c =? quote then [quote; quote] else [c]) s ++ [quote].

(** ** numbers *)
(** [std::ostream << int64_t] *)
Fixpoint dec_digits (fuel : nat) (x : Z) (acc : bytes) : bytes :=
  match fuel with
  | O => acc
  | S f => if x <? 10 then (48 + x) :: acc else dec_digits f (x / 10) ((48 + x mod 10) :: acc)
  end.
Definition dec_nat (x : Z) : bytes := dec_digits (S (Z.to_nat (Z.log2 x))) x [].
Definition dec_int (x : Z) : bytes := if x <? 0 then 45 :: dec_nat (- x) else dec_nat x.
(** strtoll / strtoull, base 10: optional white space, optional sign, digits
    (the rest is ignored); [None] without any digit *)
Definition is_digit (c : Z) : bool := (48 <=? c) && (c <=? 57).
Fixpoint digits_value (l : bytes) (acc : Z) : Z :=
  match l with c :: r => if is_digit c then digits_value r (acc * 10 + (c - 48)) else acc | [] => acc end.
Fixpoint drop_spaces (l : bytes) : bytes := match l with c :: r => if is_space c then drop_spaces r else l | [] => [] end.
Definition parse_sign (l : bytes) : bool * bytes :=
  match l with c :: r => if c =? 45 then (true, r) else if c =? 43 then (false, r) else (false, l) | [] => (false, []) end.
Definition parse_number (l : bytes) : option (bool * Z) :=
  let '(neg, r) := parse_sign (drop_spaces l) in
  match r with c :: _ => if is_digit c then Some (neg, digits_value r 0) else None | [] => None end.
(** std::stoll: invalid_argument and out_of_range are exceptions *)
Definition stoll (s : bytes) : outcome Z :=
  match parse_number s with
  | Some (neg, v) => let x := if neg then - v else v in
                     if (- 2 ^ 63 <=? x) && (x <? 2 ^ 63) then Ok x else Abort
  | None => Abort
  end.
(** std::stoull: a minus sign negates modulo 2^64 *)
Definition stoull (s : bytes) : outcome Z :=
  match parse_number s with
  | Some (neg, v) => if v <? 2 ^ 64 then Ok (if neg then (- v) mod 2 ^ 64 else v) else Abort
  | None => Abort
  end.

(** ** Dataset, data_util.h:20-44 *)
Record dataset := mkDataset { d_elements : list bytes; d_values : list Z }.
(** Write, data_util.cc:153-171 *)
Fixpoint write_rows (es : list bytes) (with_values : bool) (vs : list Z) : outcome bytes :=
  match es with
  | [] => Ok []
  | e :: es' =>
      if with_values then
        match vs with
        | [] => UB
        | v :: vs' => let! r := write_rows es' with_values vs' in Ok (escape_for_csv e ++ comma :: dec_int v ++ newline :: r)
        end
      else let! r := write_rows es' with_values vs in Ok (escape_for_csv e ++ newline :: r)
  end.
Definition dataset_write (d : dataset) : outcome bytes :=
  write_rows (d_elements d) (negb (length (d_values d) =? 0)%nat) (d_values d).
(** std::getline until it fails *)
Fixpoint get_lines (s : bytes) (cur : bytes) : list bytes :=
  match s with
  | [] => match cur with [] => [] | _ => [cur] end
  | c :: r => if c =? newline then cur :: get_lines r [] else get_lines r (cur ++ [c])
  end.
(** the constructor, data_util.cc:123-151; columns[0] of a line without columns
    is undefined *)
Fixpoint read_rows (ls : list bytes) : outcome dataset :=
  match ls with
  | [] => Ok (mkDataset [] [])
  | l :: r =>
      let! cols := split_csv_line l in
      match cols with
      | [] => UB
      | e :: more =>
          let! vs := match more with [] => Ok [] | v :: _ => let! x := stoll v in Ok [x] end in
          let! d := read_rows r in Ok (mkDataset (e :: d_elements d) (vs ++ d_values d))
      end
  end.
Definition dataset_read (file : bytes) : outcome dataset :=
  let! d := read_rows (get_lines file []) in
  if negb (length (d_values d) =? 0)%nat && negb (length (d_elements d) =? length (d_values d))%nat then Abort else Ok d.

(** Elements, data_util.cc:182-188 *)
Definition dataset_elements (d : dataset) : outcome (list Z) := omap stoull (d_elements d).
(** ElementsAndValues, data_util.cc:190-201 (the assert is compiled out);
    [values[i]] out of range and [-INT64_MIN] are undefined *)
Fixpoint pairs (es : list bytes) (vs : list Z) : outcome (list (Z * Z)) :=
  match es with
  | [] => Ok []
  | e :: es' =>
      let! x := stoull e in
      match vs with
      | [] => UB
      | v :: vs' => if v =? - 2 ^ 63 then UB else let! r := pairs es' vs' in Ok ((x, if v <? 0 then 0 - (- v) else v) :: r)
      end
  end.
Definition dataset_pairs (d : dataset) : outcome (list (Z * Z)) := pairs (d_elements d) (d_values d).
