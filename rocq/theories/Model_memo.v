(** DBMemorizeRoot (pol/pol.go:474-498) on its own: the wrapper around a database that memorizes the value of the empty key. *)
From Verif Require Export Model_pol.

(** pol/pol.go:474-477 *)
Record Memo : Type := MkMemo { me_db : gmap string bytes; me_root : bytes }.
(** pol/pol.go:479-491 *)
Definition Memo_Get (m : Memo) (key : string) : Memo * bytes :=
  if (String.length key =? 0)%nat && negb (length (me_root m) =? 0)%nat then (m, me_root m)
  else
    let val := db_get (me_db m) key in
    (if (String.length key =? 0)%nat then MkMemo (me_db m) val else m, val).
(** pol/pol.go:493-498 *)
Definition Memo_Put (m : Memo) (key : string) (val : bytes) : Memo :=
  let m := if (String.length key =? 0)%nat then MkMemo (me_db m) val else m in
  MkMemo (<[key := val]> (me_db m)) (me_root m).

(** One access: through the wrapper, or a write to the database below it (as the tree does, pol/pol.go:53-61). *)
Inductive access : Type := AGet (key : string) | APut (key : string) (val : bytes) | ABelow (key : string) (val : bytes).
(** The state after one access, and what a Get returned *)
Definition do_access (m : Memo) (a : access) : Memo * list bytes :=
  match a with
  | AGet k => let '(m, v) := Memo_Get m k in (m, [v])
  | APut k v => (Memo_Put m k v, [])
  | ABelow k v => (MkMemo (<[k := v]> (me_db m)) (me_root m), [])
  end.
Fixpoint do_accesses (m : Memo) (l : list access) : Memo * list bytes :=
  match l with
  | [] => (m, [])
  | a :: l => let '(m, r) := do_access m a in let '(m, rs) := do_accesses m l in (m, r ++ rs)
  end.
