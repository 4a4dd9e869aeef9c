(** Model of /repo/verkle/tree.go: vertices, their encoding, and the tree on top of the sparse tree. *)
From Verif Require Export Model_sparse Model_sum Model_pp.
Local Open Scope Zr_scope.

(** What the sparse tree stores: a liability at the leaves, a database key at inner vertices *)
Inductive vdat : Type := DInt (z : Z) | DKey (s : string).

(** Entries of a slice of optional values, as a map from indices (verkle/tree.go:250-266, 371-382; uint16(i) is i: a
    fanout is at most 65535) *)
Fixpoint indexed_from {A} (k : nat) (l : list (option A)) : gmap nat A :=
  match l with
  | [] => ∅
  | Some x :: l => <[k := x]> (indexed_from (S k) l)
  | None :: l => indexed_from (S k) l
  end.
Definition indexed {A} (l : list (option A)) : gmap nat A := indexed_from 0 l.

Section Verkle.
  Context {C : Curve}.

  (** verkle/tree.go:35-42; W is nil above the leaves *)
  Record Vertex : Type := MkVertex {
    v_bf : Zr; v_values : gmap nat Zr; v_digests : gmap nat Zr; v_sum : Zr; v_V : G1 C; v_W : option (G1 C) }.

  (** verkle/tree.go:82-97 *)
  Definition Vertex_Values (v : Vertex) (n : nat) : list Zr :=
    (fun j => if (j =? n - 1)%nat then v_sum v else default (IntToZr 0) (v_values v !! j)) <$> seq 0 n.

  (** verkle/tree.go:145-155: one KV (44-47) *)
  Definition kv_Bytes (kx : nat * Zr) : bytes :=
    der_seq [der_octets (be_bytes 2 (Z.of_nat (fst kx))); der_octets (Zr_Bytes (snd kx))].
  (** verkle/tree.go:133-163; [od] and [ov] are the entries of the maps Digests and values in the order of iteration. *)
  Definition Vertex_Bytes (od ov : list (nat * Zr)) (v : Vertex) : bytes :=
    der_seq [der_octets (Zr_Bytes (v_bf v));
             der_seq (kv_Bytes <$> ov);
             der_seq (kv_Bytes <$> od);
             der_octets (Zr_Bytes (v_sum v));
             der_octets (enc1 C (v_V v));
             der_octets (match v_W v with Some W => enc1 C W | None => [] end)].

  (** c.NewZrFromBytes *)
  Definition NewZrFromBytes (bs : bytes) : Zr := zr (be_val bs).
  (** Decoding of a KV *)
  Definition read_kv (c : bytes) : option (bytes * bytes) :=
    match der_read tag_octets c with
    | Some (k, c) => match der_read tag_octets c with Some (x, _) => Some (k, x) | None => None end
    | None => None
    end.
  (** asn1.Unmarshal into a RawVertex (verkle/tree.go:49-55) *)
  Definition read_RawVertex (bs : bytes) : option (bytes * list (bytes * bytes) * list (bytes * bytes) * bytes * bytes * bytes) :=
    match der_read tag_sequence bs with None => None | Some (c, _) =>
    match der_read tag_octets c with None => None | Some (bf, c) =>
    match der_read tag_sequence c with None => None | Some (vs, c) =>
    match der_read_all read_kv (length vs) vs with None => None | Some vs =>
    match der_read tag_sequence c with None => None | Some (ds, c) =>
    match der_read_all read_kv (length ds) ds with None => None | Some ds =>
    match der_read tag_octets c with None => None | Some (s, c) =>
    match der_read tag_octets c with None => None | Some (V, c) =>
    match der_read tag_octets c with None => None | Some (W, _) =>
    Some (bf, vs, ds, s, V, W) end end end end end end end end end.
  (** verkle/tree.go:124-130: binary.BigEndian.Uint16 panics on fewer than two bytes *)
  Fixpoint read_map (l : list (bytes * bytes)) (m : gmap nat Zr) : res (gmap nat Zr) :=
    match l with
    | [] => Ret m
    | (k, x) :: l => check! (2 <=? length k)%nat in read_map l (<[Z.to_nat (be_val (take 2 k)) := NewZrFromBytes x]> m)
    end.
  (** verkle/tree.go:99-131 *)
  Definition FromBytes (bs : bytes) : res Vertex :=
    match read_RawVertex bs with
    | None => Panic
    | Some (bf, vs, ds, s, V, W) =>
      match dec1 C V with
      | None => Panic
      | Some V =>
        let! W := match W with [] => Ret None | _ => match dec1 C W with Some W => Ret (Some W) | None => Panic end end in
        let! digests := read_map ds ∅ in
        let! values := read_map vs ∅ in
        Ret (MkVertex (NewZrFromBytes bf) values digests (NewZrFromBytes s) V W)
      end
    end.

  (** verkle/tree.go:165-173 *)
  Definition Vertex_Digest (v : Vertex) : res Zr :=
    FieldElementFromBytes (sha256 C (enc1 C (v_V v) ++ match v_W v with Some W => enc1 C W | None => [] end)).

  (** The database (verkle/tree.go:23-26), a map like the one of the benchmark (bench/main.go:448-456); a missing key yields an empty slice.  [tick] counts the vertices
      written: it indexes the fresh randomness and the iteration orders used. *)
  Record VState : Type := MkVState { vs_db : gmap string bytes; vs_tick : nat }.
  Definition db_get (db : gmap string bytes) (k : string) : bytes := match db !! k with Some bs => bs | None => [] end.

  Section Tree.
    (** t.PP, the outcomes of c.NewRandomZr, and the order in which the maps are iterated in Bytes() (true: Digests) *)
    Variable (pp : PP C) (rnd : nat -> Zr) (order : nat -> bool -> gmap nat Zr -> list (nat * Zr)).

    (** t.DB.Put([]byte(key), v.Bytes()) *)
    Definition store (st : VState) (key : string) (v : Vertex) : VState :=
      MkVState (<[key := Vertex_Bytes (order (vs_tick st) true (v_digests v)) (order (vs_tick st) false (v_values v)) v]> (vs_db st)) (S (vs_tick st)).

    (** verkle/tree.go:341-350 *)
    Definition fetchVertex (st : VState) (desc : option vdat) : res Vertex :=
      match desc with
      | Some (DKey k) =>
        match db_get (vs_db st) k with [] => Panic | bs => FromBytes bs end
      | _ => Panic
      end.

    (** verkle/tree.go:429-431 *)
    Definition updateSum (sum removed added : Zr) : Zr := sum + (added - removed).

    (** verkle/tree.go:229-339 *)
    Definition updateInnerLayer (st : VState) (key : string) (node : option vdat) (descendants : list (option vdat)) (index : nat) : res (VState * option vdat) :=
      match node with
      | None =>
        (* 236-285 *)
        let bf := rnd (vs_tick st) in
        let! ds := mapM (fun desc => match desc with
            | None => Ret None
            | Some _ => let! u := fetchVertex st desc in let! g := Vertex_Digest u in Ret (Some (v_sum u, g)) end) descendants in
        let sum := fold_left (fun s o => match o with Some (x, _) => s + x | None => s end) ds (IntToZr 0) in
        let values := indexed ((fun o : option (Zr * Zr) => match o with Some (x, _) => Some x | None => None end) <$> ds) in
        let digests := indexed ((fun o : option (Zr * Zr) => match o with Some (_, g) => Some g | None => None end) <$> ds) in
        let m := ((fun o : option (Zr * Zr) => match o with Some (x, _) => x | None => IntToZr 0 end) <$> ds) ++ [sum; bf] in
        let! V := Commit pp m in
        let d := ((fun o : option (Zr * Zr) => match o with Some (_, g) => g | None => IntToZr 0 end) <$> ds) ++ [IntToZr 0; IntToZr 0] in
        let! W := Commit pp d in
        Ret (store st key (MkVertex bf values digests sum V (Some W)), Some (DKey key))
      | Some _ =>
        (* 287-338 *)
        let! v := fetchVertex st (Some (DKey key)) in
        let oldVal := default (IntToZr 0) (v_values v !! index) in
        let! desc := idx descendants index in
        let! u := fetchVertex st desc in
        let newVal := v_sum u in
        let! newDigest := Vertex_Digest u in
        let digests := <[index := newDigest]> (v_digests v) in
        let sum := updateSum (v_sum v) oldVal newVal in
        let values := <[index := newVal]> (v_values v) in
        let N := pp_N pp in
        let m := (fun i => default (IntToZr 0) (values !! i)) <$> seq 0 N in
        (* a value without digest would be a nil pointer *)
        let! d := mapM (fun i => match values !! i with
            | Some _ => match digests !! i with Some g => Ret g | None => Panic end
            | None => Ret (IntToZr 0) end) (seq 0 N) in
        check! (2 <=? N)%nat in
        let m := <[(N - 1)%nat := v_bf v]> (<[(N - 2)%nat := sum]> m) in
        let! V := Commit pp m in
        let! W := Commit pp d in
        Ret (store st key (MkVertex (v_bf v) values digests sum V (Some W)), Some (DKey key))
      end.

    (** verkle/tree.go:352-427 *)
    Definition updateLayerAboveLeaves (st : VState) (key : string) (node : option vdat) (descendants : list (option vdat)) (index : nat) : res (VState * option vdat) :=
      match node with
      | None =>
        (* 361-393 *)
        let bf := rnd (vs_tick st) in
        let! ds := mapM (fun desc => match desc with
            | None => Ret None
            | Some (DInt z) => Ret (Some (IntToZr z))
            | Some (DKey _) => Panic end) descendants in
        let sum := fold_left (fun s o => match o with Some x => s + x | None => s end) ds (IntToZr 0) in
        let m := (default (IntToZr 0) <$> ds) ++ [sum; bf] in
        let! V := Commit pp m in
        Ret (store st key (MkVertex bf (indexed ds) ∅ sum V None), Some (DKey key))
      | Some _ =>
        (* 395-426 *)
        let! v := fetchVertex st (Some (DKey key)) in
        let oldVal := default (IntToZr 0) (v_values v !! index) in
        let! desc := idx descendants index in
        match desc with
        | Some (DInt z) =>
          let newVal := IntToZr z in
          let sum := updateSum (v_sum v) oldVal newVal in
          let m := ((fun i => default (IntToZr 0) (v_values v !! i)) <$> seq 0 (pp_N pp)) ++ [sum] in
          let! V := Update pp (v_V v) m newVal index in
          let values := <[index := newVal]> (v_values v) in
          let! V := Update pp V m sum (size values) in
          Ret (store st key (MkVertex (v_bf v) values (v_digests v) sum V (v_W v)), Some (DKey key))
        | _ => Panic
        end
      end.

    (** verkle/tree.go:222-227 *)
    Definition updateInnerVertex : callback vdat VState := fun st key node descendants leaves index =>
      if leaves then updateLayerAboveLeaves st key node descendants index
      else updateInnerLayer st key node descendants index.

    (** verkle/tree.go:28-33: the state of the tree.  (The field depth is never used.) *)
    Record VTree : Type := MkVTree { vt_tree : tree vdat; vt_state : VState }.
    Variable (fanout : nat) (id2path : string -> res path).

    (** verkle/tree.go:175-188, on a given database.  The public parameters it generates are replaced by the caller
        (pol/pol.go:55) and are an argument here. *)
    Definition NewVerkleTree (db : gmap string bytes) : VTree := MkVTree None (MkVState db 0).

    (** verkle/tree.go:218-220 *)
    Definition VPut (t : VTree) (id : string) (z : Z) : res VTree :=
      let! '(st, r) := Put updateInnerVertex fanout id2path (vt_state t) (vt_tree t) id (Some (DInt z)) in
      Ret (MkVTree r st).

    (** verkle/tree.go:200-216; None stands for 0, nil, false *)
    Definition VGet (t : VTree) (id : string) : res (option (Z * list Vertex)) :=
      let! g := Get id2path (vt_tree t) id in
      match g with
      | None => Ret None
      | Some (n, path) =>
        let! vs := mapM (fun u => match vdata u with
            | Some (DKey key) => FromBytes (db_get (vs_db (vt_state t)) key)
            | _ => Panic end) path in
        match n with Some (DInt z) => Ret (Some (z, vs)) | _ => Panic end
      end.

    (** verkle/tree.go:190-198: the data of a vertex is a liability or a key, never a *Vertex. *)
    Definition VSerialize (ord : string -> list (nat * bytes) -> list (nat * bytes)) (t : VTree) : res bytes :=
      match vt_tree t with
      | None => Panic
      | Some root => Ret (Serialize ord (fun data => match data with Some (DInt _) | Some (DKey _) | None => [] end) root "")
      end.
  End Tree.

  (** verkle/tree.go:59-80; the random w and r' of the sum argument are arguments. *)
  Definition SumArgument (vs : list Vertex) (sp : sumPP C) (w : list Zr) (rPrime : Zr) : res (sumProof C) :=
    sum_NewAggregatedArgument sp (v_V <$> vs) ((fun v => Vertex_Values v (length (sp_H sp))) <$> vs) (v_bf <$> vs) w rPrime.
End Verkle.
Arguments Vertex : clear implicits.
