(** * What JoinPath is documented to do (util/file.h:86-107). *)
Require Import List ZArith Bool.
Import ListNotations.
Local Open Scope Z_scope.
Definition dot : Z := 46.
(** one leading and one trailing slash taken off *)
Definition drop_lead (s : list Z) : list Z := match s with c :: r => if c =? 47 then r else s | [] => [] end.
Definition drop_trail (s : list Z) : list Z := rev (drop_lead (rev s)).
Definition trim (s : list Z) : list Z := drop_trail (drop_lead s).
(** the directory, with a slash at its end *)
Definition directory (s : list Z) : list Z := drop_trail s ++ [47].
(** the pieces with a dot between each two *)
Fixpoint dotted (l : list (list Z)) : list Z :=
  match l with [] => [] | [a] => a | a :: r => a ++ [dot] ++ dotted r end.
