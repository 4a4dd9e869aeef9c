(** Model of /repo/pol/pol.go: public parameters, the liability set and its proofs.

    Time measurements are omitted.  The goroutines of Verify and ProveLiability are run in place here, which is what the
    code does when ParallelismEnabled is false; their interleavings are in Model_conc.v. *)
From Verif Require Export Model_verkle Model_poe.
Local Open Scope Zr_scope.

(** pol/pol.go:20-27 *)
Inductive TreeType : Type := Sparse | Dense.

(** Zr.Int of mathlib: an error unless the value fits in an int64 *)
Definition Zr_Int (x : Zr) : option Z := if (zv x <? 2 ^ 63)%Z then Some (zv x) else None.

(** The loops at pol/pol.go:78-80, 210-215 and 446-455: increase m until it is a power of two.  IsPowerOfTwo does not
    return on 0, so no run goes beyond 65536 iterations. *)
Fixpoint pad_loop (fuel m : nat) : res nat :=
  match fuel with
  | O => Hang
  | S fuel => let! ok := IsPowerOfTwo (uint16 m) in if ok then Ret m else pad_loop fuel (m + 1)
  end.
Definition pad_to_pow2 (m : nat) : res nat := pad_loop (Z.to_nat 65536) m.

(** common/math.go:122-128 *)
Definition Vec_Size (v : list Zr) : nat := sum_list ((fun x => length (Zr_Bytes x)) <$> v).

(** make(common.G1v, n) followed by copy(dst, src) with len(src) >= n (pol/pol.go:95-96); a shorter src would leave nil
    pointers. *)
Definition copy_n {A} (n : nat) (src : list A) : res (list A) := check! (n <=? length src)%nat in Ret (take n src).

Section Pol.
  Context {C : Curve}.

  (** pol/pol.go:39-45 *)
  Record PolPP : Type := MkPolPP {
    po_PPPP : PP C; po_SAPP : sumPP C; po_RPPP : RPPP C; po_POEPP : poePP C; po_Fanout : nat }.

  (** pol/pol.go:47-49 *)
  Definition PolPP_Size (pp : PolPP) : Z :=
    (Z.of_nat (RPPP_Size (po_RPPP pp)) + Z.of_nat (poePP_Size (po_POEPP pp)) + Z.of_nat (sumPP_Size (po_SAPP pp))
     - Z.of_nat (length (G1v_Bytes (sp_Gs (po_SAPP pp)))) - Z.of_nat (length (enc1 C (sp_F (po_SAPP pp))))
     - Z.of_nat (length (G1v_Bytes (rp_Gs (po_RPPP pp)))) - Z.of_nat (length (enc1 C (rp_F (po_RPPP pp))))
     - Z.of_nat (PP_Size (po_PPPP pp)))%Z.

  (** The length of full paths minus one, and the id-to-path function (pol/pol.go:68-76).  That function takes the
      number of iterations allowed (see HexId2PathForFanOut in Model_paths.v).  A fanout missing in the table of lengths
      makes HexId2PathForFanOut panic. *)
  Definition tree_paths (fanOut : Z) (treeType : TreeType) : res (nat * (nat -> string -> res path)) :=
    match treeType with
    | Dense =>
      let! L := DigitPathLen fanOut in
      let! id2Path := DigitPath fanOut in
      Ret ((L - 1)%nat, fun _ => id2Path)
    | Sparse =>
      let! id2Path := HexId2PathForFanOut (C:=C) fanOut in
      Ret ((default 0 (hex_path_length fanOut) - 1)%nat, id2Path)
    end.

  (** pol/pol.go:94-99: the generators of the range and sum arguments are replaced; their digests are not recomputed. *)
  Definition set_sum_gens (sp : sumPP C) (Gs : list (G1 C)) (F : G1 C) : sumPP C :=
    MkSumPP (sp_Digest sp) (sp_U sp) Gs (sp_G sp) F (sp_H sp) (sp_b sp) (sp_B sp).
  Definition set_range_gens (rp : RPPP C) (Gs : list (G1 C)) (F : G1 C) : RPPP C :=
    MkRPPP (rp_G rp) (rp_H rp) F Gs (rp_Hs rp) (rp_Fs rp) (rp_digest rp).

  (** pol/pol.go:64-101; α is the trapdoor drawn by pp.NewPublicParams.  fanOut+1 and fanOut+2 wrap at 2^16. *)
  Definition GeneratePublicParams (fanOut : Z) (treeType : TreeType) (α : Zr) : res ((nat -> string -> res path) * PolPP) :=
    let! '(m, id2Path) := tree_paths fanOut treeType in
    let! m := pad_to_pow2 m in
    let! poePP := poe_NewPublicParams (Z.to_nat ((fanOut + 2) mod 2 ^ 16)) m α in
    let n := Z.to_nat ((fanOut + 1) mod 2 ^ 16) in
    let PPPP := pe_PP poePP in
    let! SAPP := sum_NewPublicParams n in
    let! RPPP := NewRangeProofPublicParams n in
    let! F := idx (pp_G1s PPPP) n in
    let! Gs := copy_n n (pp_G1s PPPP) in
    Ret (id2Path, MkPolPP PPPP (set_sum_gens SAPP Gs F) (set_range_gens RPPP Gs F) poePP (Z.to_nat fanOut)).

  (** pol/pol.go:269-272; Sum is an int, here any integer *)
  Record TotalProof : Type := MkTP { tp_proof : G1 C; tp_Sum : Z }.

  (** pol/pol.go:274-277 *)
  Definition TotalProof_Verify (tp : TotalProof) (pp : PolPP) (V : G1 C) : res error :=
    let mi := IntToZr (tp_Sum tp) in
    Verify (po_PPPP pp) mi (tp_proof tp) V (po_Fanout pp).

  (** pol/pol.go:103-113 *)
  Record LiabilityProof : Type := MkLP {
    lp_Σ : Zr; lp_π : G1 C; lp_sum : sumProof C;
    lp_V : list (G1 C); lp_W : list (G1 C); lp_Digests : list Zr;
    lp_RangeProofs : list (RangeProof C); lp_Eq : AggProof C; lp_Liability : TotalProof }.

  (** pol/pol.go:115-122; lp_Liability is not counted. *)
  Definition LiabilityProof_Size (lp : LiabilityProof) : nat :=
    length (Zr_Bytes (lp_Σ lp)) + length (enc1 C (lp_π lp)) + sumProof_Size (lp_sum lp) + length (G1v_Bytes (lp_V lp)) +
    length (G1v_Bytes (lp_W lp)) + Vec_Size (lp_Digests lp) + sum_list (RangeProof_Size <$> lp_RangeProofs lp) +
    AggProof_Size (lp_Eq lp).

  (** ** Verification *)
  (** pol/pol.go:235-245 *)
  Definition checkCommitmentToInnerVertex (lp : LiabilityProof) (i : nat) : res error :=
    let! V := idx (lp_V lp) i in
    let! W := idx (lp_W lp) i in
    let! expectedPreviousDigest := FieldElementFromBytes (sha256 C (enc1 C V ++ enc1 C W)) in
    let! d := idxZ (lp_Digests lp) (Z.of_nat i - 1) in
    if zeqb d expectedPreviousDigest then Ret nil_error else Ret (Err "hash path mismatch").
  (** pol/pol.go:247-256 *)
  Definition checkCommitmentToLeafVertex (lp : LiabilityProof) (i : nat) : res error :=
    let! V := idx (lp_V lp) i in
    let! expectedPreviousDigest := FieldElementFromBytes (sha256 C (enc1 C V)) in
    let! d := idxZ (lp_Digests lp) (Z.of_nat i - 1) in
    if zeqb d expectedPreviousDigest then Ret nil_error else Ret (Err "hash path mismatch").

  (** pol/pol.go:126-137; the path may be empty, and len(path)-1 is then negative. *)
  Definition verify_header (lp : LiabilityProof) (path : path) (V W : G1 C) : res error :=
    if (Z.of_nat (length (lp_W lp)) =? Z.of_nat (length path) - 1)%Z && (length (lp_Digests lp) =? length path)%nat then
      let! V0 := idx (lp_V lp) 0 in
      if geqb V0 V then
        let! W0 := idx (lp_W lp) 0 in
        if geqb W0 W then Ret nil_error else Ret (Err "root W does not match public known W value")
      else Ret (Err "root V does not match public known V value")
    else Ret (Err "expected digest proofs of another size").
  (** pol/pol.go:155-160 and the arguments at 170 or 172: what is read from the proof before the range proof of iteration i
      is verified *)
  Definition verify_args (lp : LiabilityProof) (path : path) (i : nat) : res (RangeProof C * G1 C) :=
    let! _ := if (i <? length path - 1)%nat then let! _ := idx (lp_V lp) i in idx (lp_V lp) (i + 1) else idx (lp_V lp) i in
    let! rp := idx (lp_RangeProofs lp) i in
    let! V := idx (lp_V lp) i in
    Ret (rp, V).
  (** pol/pol.go:175-192 *)
  Definition verify_digest (lp : LiabilityProof) (path : path) (i : nat) : res error :=
    if (i =? length path - 1)%nat then checkCommitmentToLeafVertex lp i
    else if (0 <? i)%nat then checkCommitmentToInnerVertex lp i
    else Ret nil_error.
  (** The equality statement of pol/pol.go:144-160 and 205-215, padded (Zero: common/math.go:115-120) *)
  Definition verify_equalities (pp : PolPP) (lp : LiabilityProof) (path : path) : res (Equalities C) :=
    let k := (length path - 1)%nat in
    let! V := mapM (fun i => idx (lp_V lp) i) (seq 0 k) in
    let! W := mapM (fun i => idx (lp_V lp) (i + 1)) (seq 0 k) in
    let! zeroCommit := Commit (po_PPPP pp) (replicate (po_Fanout pp + 2) (IntToZr 0)) in
    let! m := pad_to_pow2 k in
    Ret (MkEqs poe_RO (po_POEPP pp) (V ++ replicate (m - k) zeroCommit) (W ++ replicate (m - k) zeroCommit)
               (take k path ++ replicate (m - k) 0%nat) (replicate k (po_Fanout pp) ++ replicate (m - k) 0%nat)).
  (** pol/pol.go:195-221 (466-472: the conversion of the indices does not change them) *)
  Definition verify_arguments (pp : PolPP) (lp : LiabilityProof) (path : path) : res error :=
    let! e := VerifyAggregation (po_PPPP pp) (take (length path - 1) path) (lp_W lp) (lp_π lp) (lp_Σ lp) RO in
    match e with Err err => Ret (Err ("hash chain aggregation proof invalid: " +:+ err)) | nil_error =>
    let! e := sum_VerifyAggregated (lp_sum lp) (po_SAPP pp) (lp_V lp) in
    match e with Err err => Ret (Err ("failed verifying sum argument: " +:+ err)) | nil_error =>
    let! equalities := verify_equalities pp lp path in
    let! e := Equalities_Verify equalities (lp_Eq lp) in
    match e with Err _ => Ret (Err "failed verifying equality proof") | nil_error => Ret nil_error end end end.
  (** pol/pol.go:228-230; both indices are -1 on an empty slice. *)
  Definition verify_liability (pp : PolPP) (lp : LiabilityProof) (path : path) : res error :=
    let! V := idx_last (lp_V lp) 0 in
    let! i := idx_last path 0 in
    let! e := Verify (po_PPPP pp) (IntToZr (tp_Sum (lp_Liability lp))) (tp_proof (lp_Liability lp)) V i in
    match e with Err err => Ret (Err ("client liability proof is invalid: " +:+ err)) | nil_error => Ret nil_error end.

  (** pol/pol.go:153-193 from iteration i on, with the error stored so far in detectedRangeProofErr.  Returns early with
      an error (inr) or goes on with the stored error. *)
  Fixpoint verify_loop (pp : PolPP) (lp : LiabilityProof) (path : path) (is : list nat) (stored : error) : res (error + error) :=
    match is with
    | [] => Ret (inl stored)
    | i :: is =>
      let! '(rp, V) := verify_args lp path i in
      let! e := VerifyRange (po_RPPP pp) rp V in
      let stored := match e with Err _ => e | nil_error => stored end in
      let! e := verify_digest lp path i in
      match e with Err _ => Ret (inr e) | nil_error => verify_loop pp lp path is stored end
    end.
  (** pol/pol.go:124-233 *)
  Definition LiabilityProof_Verify (lp : LiabilityProof) (pp : PolPP) (id : string) (V W : G1 C) (id2path : string -> res path) : res error :=
    let! path := id2path id in
    let! e := verify_header lp path V W in
    match e with Err _ => Ret e | nil_error =>
    let! r := verify_loop pp lp path (seq 0 (length path)) nil_error in
    match r with inr e => Ret e | inl stored =>
    let! e := verify_arguments pp lp path in
    match e with Err _ => Ret e | nil_error =>
    match stored with Err _ => Ret stored | nil_error => verify_liability pp lp path end end end end.

  (** ** The liability set *)
  (** pol/pol.go:33-37: the tree, and the root memorized by the database wrapper DBMemorizeRoot (474-477).  The tree itself
      writes to the database below the wrapper (53-61). *)
  Record LSet : Type := MkLS { ls_tree : VTree; ls_root : bytes }.

  Section Liability_set.
    (** The parameters, the outcomes of c.NewRandomZr in the tree and the orders of its map iterations (Model_verkle.v),
        and the id-to-path function *)
    Variable (pp : PolPP) (rnd : nat -> Zr) (order : nat -> bool -> gmap nat Zr -> list (nat * Zr)) (id2path : string -> res path).

    (** uint16(pp.Fanout) (pol/pol.go:54) *)
    Definition ls_fanout : nat := Z.to_nat (uint16 (po_Fanout pp)).

    (** pol/pol.go:53-62, on a given database *)
    Definition NewLiabilitySet (db : gmap string bytes) : LSet := MkLS (NewVerkleTree db) [].

    (** pol/pol.go:318-324 *)
    Definition LS_Set (ls : LSet) (id : string) (liability : Z) : res LSet :=
      if (liability <? 0)%Z then Panic else
      let! t := VPut (po_PPPP pp) rnd order ls_fanout id2path (ls_tree ls) id liability in
      Ret (MkLS t (ls_root ls)).

    (** pol/pol.go:326-329; None stands for 0, false *)
    Definition LS_Get (ls : LSet) (id : string) : res (option Z) :=
      let! g := VGet (C:=C) id2path (ls_tree ls) id in
      Ret (match g with Some (z, _) => Some z | None => None end).

    (** pol/pol.go:479-491 *)
    Definition memo_Get (ls : LSet) (key : string) : LSet * bytes :=
      if (String.length key =? 0)%nat && negb (length (ls_root ls) =? 0)%nat then (ls, ls_root ls)
      else
        let val := db_get (vs_db (vt_state (ls_tree ls))) key in
        (if (String.length key =? 0)%nat then MkLS (ls_tree ls) val else ls, val).

    (** pol/pol.go:258-267; None stands for nil, nil.  W is nil above the leaves. *)
    Definition Root (ls : LSet) : res (LSet * option (G1 C * option (G1 C))) :=
      match vt_tree (ls_tree ls) with
      | None => Ret (ls, None)
      | Some root =>
        match vdata root with
        | Some (DKey key) =>
          let '(ls, bs) := memo_Get ls key in
          let! v := FromBytes (C:=C) bs in
          Ret (ls, Some (v_V v, v_W v))
        | _ => Panic
        end
      end.

    (** pol/pol.go:299-302 and 309-312 *)
    Definition vertex_vec (v : Vertex C) : list Zr :=
      Vertex_Values v (pp_N (po_PPPP pp) - 1) ++ [v_bf v].
    (** pol/pol.go:298-306 *)
    Definition openSumFromVertex (v : Vertex C) : res (Zr * G1 C) :=
      let m := vertex_vec v in Open (po_PPPP pp) (length m - 2) m.
    (** pol/pol.go:308-316 *)
    Definition openForClient (v : Vertex C) (index : nat) : res (Zr * G1 C) :=
      Open (po_PPPP pp) index (vertex_vec v).

    (** pol/pol.go:279-296: reads the root from the database below the wrapper *)
    Definition ProveTot (ls : LSet) : res TotalProof :=
      let cachedRoot := db_get (vs_db (vt_state (ls_tree ls))) "" in
      let! v := FromBytes (C:=C) cachedRoot in
      let! '(sum, π) := openSumFromVertex v in
      match Zr_Int sum with None => Panic | Some sumAsInt => Ret (MkTP π sumAsInt) end.

    (** The random values of one run of ProveLiability: of the range proof of each vertex, of the sum argument and of the
        equality argument *)
    Record ProofCoins : Type := MkPC {
      pc_range : nat -> RangeCoins; pc_w : list Zr; pc_r' : Zr; pc_eq : list (Zr * Zr * Zr); pc_r1 : Zr; pc_r2 : Zr }.

    (** pol/pol.go:364-373 *)
    Definition vertex_digests (v : Vertex C) : list Zr :=
      (fun j => default (IntToZr 0) (v_digests v !! j)) <$> seq 0 (ls_fanout + 2).
    (** pol/pol.go:384-389 *)
    Definition eq_vec (v : Vertex C) : list Zr := Vertex_Values v (ls_fanout + 1) ++ [v_bf v].
    (** The range proof of iteration i (pol/pol.go:392-404) *)
    Definition prove_range_of (co : ProofCoins) (v : Vertex C) (i : nat) : res (RangeProof C) :=
      ProveRange (po_RPPP pp) (v_V v) (Vertex_Values v (ls_fanout + 1)) (v_bf v) (pc_range co i).
    (** The equality statement and its witness (pol/pol.go:352-361, 378-390, 440-455): vEQ, wEQ *)
    Definition prove_equalities (path : path) (vs : list (Vertex C)) : res (Equalities C * list (list Zr) * list (list Zr)) :=
      let k := (length path - 1)%nat in
      let! v := mapM (fun i => idx vs i) (seq 0 k) in
      let! w := mapM (fun i => idx vs (i + 1)) (seq 0 k) in
      let zeroVec := replicate (ls_fanout + 2) (IntToZr 0) in
      let! zeroCommit := Commit (po_PPPP pp) zeroVec in
      let! m := pad_to_pow2 k in
      Ret (MkEqs poe_RO (po_POEPP pp) ((v_V <$> v) ++ replicate (m - k) zeroCommit) ((v_V <$> w) ++ replicate (m - k) zeroCommit)
               (take k path ++ replicate (m - k) 0%nat) (replicate k ls_fanout ++ replicate (m - k) 0%nat),
           (eq_vec <$> v) ++ replicate (m - k) zeroVec, (eq_vec <$> w) ++ replicate (m - k) zeroVec).

    (** pol/pol.go:331-464.  None stands for the result false.  A path without entries makes line 352 panic. *)
    Definition ProveLiability (co : ProofCoins) (ls : LSet) (id : string) : res (option (Z * LiabilityProof)) :=
      let! path := id2path id in
      let! g := VGet (C:=C) id2path (ls_tree ls) id in
      match g with
      | None => Ret None
      | Some (_, along) =>
        check! (1 <=? length path)%nat in
        let n := length path in
        (* the loop at 363-415 *)
        let! vertices := mapM (fun i => idx along i) (seq 0 n) in
        let! rangeProofs := mapM (fun i => let! v := idx along i in prove_range_of co v i) (seq 0 n) in
        let! opened := mapM (fun i => let! v := idx along i in let! pi := idx path i in
                                      let! '(digest, π) := Open (po_PPPP pp) pi (vertex_digests v) in
                                      Ret (v_W v, digest, π)) (seq 0 n) in
        let V := v_V <$> vertices in
        let W := omap (fun o : option (G1 C) * Zr * G1 C => fst (fst o)) opened in
        let digestProofs := omap (fun o : option (G1 C) * Zr * G1 C => match fst (fst o) with Some _ => Some (snd o) | None => None end) opened in
        let Digests := (fun o : option (G1 C) * Zr * G1 C => snd (fst o)) <$> opened in
        (* 417-427 *)
        let! lastVertex := idx vertices (n - 1) in
        let! pl := idx path (n - 1) in
        let! '(l, liabilityProof) := openForClient lastVertex pl in
        match Zr_Int l with
        | None => Panic
        | Some liability =>
          (* 429-437 *)
          let! tPP := mapM (fun i => RO (po_PPPP pp) W i) (seq 0 (n - 1)) in
          let! ds := slice_to (length tPP) Digests in
          let! Σ := Vec_InnerProd ds tPP in
          let! π := Aggregate (po_PPPP pp) W digestProofs RO in
          let! sumArg := SumArgument vertices (po_SAPP pp) (pc_w co) (pc_r' co) in
          (* 440-459 *)
          let! '(equalities, vEQ, wEQ) := prove_equalities path along in
          let! eq := Equalities_Prove equalities vEQ wEQ (pc_eq co) (pc_r1 co) (pc_r2 co) in
          Ret (Some (liability, MkLP Σ π sumArg V W Digests rangeProofs eq (MkTP liabilityProof liability)))
        end
      end.
  End Liability_set.
End Pol.
Arguments PolPP : clear implicits.
Arguments TotalProof : clear implicits.
Arguments LiabilityProof : clear implicits.
