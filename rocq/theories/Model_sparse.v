(** Model of the tree of /repo/sparse/tree.go (lines 15-129; the id-to-path functions are in Model_paths.v). *)
From Verif Require Export Model_paths Model_der.

(** ** Go maps from uint16 as association lists *)
(** m[k] *)
Fixpoint mget {A} (m : list (nat * A)) (k : nat) : option A :=
  match m with [] => None | (k', a) :: m => if decide (k = k') then Some a else mget m k end.
(** m[k] = a *)
Fixpoint mset {A} (m : list (nat * A)) (k : nat) (a : A) : list (nat * A) :=
  match m with [] => [(k, a)] | (k', a') :: m => if decide (k = k') then (k, a) :: m else (k', a') :: mset m k a end.

Section Sparse.
  (** [D]: the data stored in vertices; [St]: state used by the callback *)
  Context {D St : Type}.

  (** sparse/tree.go:85-90: nil data is None.  The Parent pointer is omitted: the model's Put goes up again where its
      recursion returns. *)
  Inductive vtx : Type := Vtx (key : string) (data : option D) (desc : list (nat * vtx)).
  Definition vkey (v : vtx) : string := let 'Vtx k _ _ := v in k.
  Definition vdata (v : vtx) : option D := let 'Vtx _ d _ := v in d.
  Definition vdesc (v : vtx) : list (nat * vtx) := let 'Vtx _ _ m := v in m.
  (** sparse/tree.go:119-121 (not called in the repository) *)
  Definition AddDescendant (v u : vtx) (at_ : nat) : vtx := Vtx (vkey v) (vdata v) (mset (vdesc v) at_ u).
  (** sparse/tree.go:19: the root, nil before the first Put *)
  Definition tree : Type := option vtx.

  (** sparse/tree.go:17: the callback, on an explicit state.  Arguments: key, node, descendants, descendantsLeaves,
      indexChanged. *)
  Definition callback : Type := St -> string -> option D -> list (option D) -> bool -> nat -> res (St * option D).

  (** fmt.Sprintf("%s.%d", s, p) (sparse/tree.go:56, 114) *)
  Definition child_key (s : string) (p : nat) : string := s +:+ "." +:+ pretty (N.of_nat p).

  (** sparse/tree.go:123-129 *)
  Fixpoint rawData (size : nat) (m : list (nat * vtx)) : res (list (option D)) :=
    match m with
    | [] => Ret (replicate size None)
    | (k, u) :: m => let! r := rawData size m in check! (k <? size)%nat in Ret (<[k := vdata u]> r)
    end.

  (** sparse/tree.go:51-81 from vertex [v], reached with pathString [s], on the remaining path; descends, then runs the
      callbacks on the way back.  The flag descendantsLeaves is true when the remaining path has one entry. *)
  Fixpoint put_at (upd : callback) (fanout : nat) (st : St) (v : vtx) (s : string) (p : path) (d : option D) : res (St * vtx) :=
    match p with
    | [] => Ret (st, Vtx (vkey v) d (vdesc v))
    | i :: p' =>
      let s' := child_key s i in
      let u := match mget (vdesc v) i with Some u => u | None => Vtx s' None [] end in
      let! '(st, u) := put_at upd fanout st u s' p' d in
      let m := mset (vdesc v) i u in
      let! raw := rawData fanout m in
      let! '(st, x) := upd st (vkey v) (vdata v) raw (match p' with [] => true | _ => false end) i in
      Ret (st, Vtx (vkey v) x m)
    end.
  (** sparse/tree.go:42-82 *)
  Definition Put (upd : callback) (fanout : nat) (id2path : string -> res path) (st : St) (t : tree) (id : string) (d : option D) : res (St * tree) :=
    let! p := id2path id in
    let root := match t with Some v => v | None => Vtx "" None [] end in
    let! '(st, v) := put_at upd fanout st root "" p d in
    Ret (st, Some v).

  (** sparse/tree.go:32-38: the vertices visited before the last one, and the last one *)
  Fixpoint get_at (v : vtx) (p : path) : option (list vtx * vtx) :=
    match p with
    | [] => Some ([], v)
    | i :: p =>
      match mget (vdesc v) i with
      | None => None
      | Some u => match get_at u p with Some (l, w) => Some (v :: l, w) | None => None end
      end
    end.
  (** sparse/tree.go:22-40; None stands for the results nil, nil, false *)
  Definition Get (id2path : string -> res path) (t : tree) (id : string) : res (option (option D * list vtx)) :=
    let! p := id2path id in
    match t with
    | None => Ret None
    | Some v => match get_at v p with Some (l, w) => Ret (Some (vdata w, l)) | None => Ret None end
    end.

  (** A sequence of Puts *)
  Fixpoint Puts (upd : callback) (fanout : nat) (id2path : string -> res path) (st : St) (t : tree) (h : list (string * option D)) : res (St * tree) :=
    match h with
    | [] => Ret (st, t)
    | (id, d) :: h => let! '(st, t) := Put upd fanout id2path st t id d in Puts upd fanout id2path st t h
    end.

  (** sparse/tree.go:107-108: 32 bytes, of which the first four hold the length *)
  Definition ser_header (n : nat) : bytes := be_bytes 4 (Z.of_nat n mod 2 ^ 32) ++ replicate 28 0%Z.
  (** sparse/tree.go:98-111: one record.  The path consists of dots and digits, a PrintableString. *)
  Definition ser_record (p : string) (bs : bytes) : bytes :=
    let r := der_seq [der_printable (string_bytes p); der_octets bs] in ser_header (length r) ++ r.
  (** sparse/tree.go:97-117.  [order] is the order in which the map of the vertex with a given path is iterated: a
      permutation of the children. *)
  Fixpoint Serialize (order : string -> list (nat * bytes) -> list (nat * bytes)) (vertexToBytes : option D -> bytes) (v : vtx) (p : string) : bytes :=
    match v with
    | Vtx _ d m =>
      ser_record p (vertexToBytes d) ++
      concat (map snd (order p (map (fun ku => (fst ku, Serialize order vertexToBytes (snd ku) (child_key p (fst ku)))) m)))
    end.
End Sparse.
Arguments vtx : clear implicits.
Arguments tree : clear implicits.
Arguments callback : clear implicits.
