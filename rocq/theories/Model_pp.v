(** Model of /repo/pp/pointproofs.go (PointProofs vector commitments). *)
From Verif Require Export Common_facts.
Local Open Scope Zr_scope.

Section PP.
  Context {C : Curve}.

  (** pp/pointproofs.go:17-23 *)
  Record PP : Type := MkPP {
    pp_Digest : bytes;
    pp_N : nat;
    pp_G1s : list (G1 C);
    pp_G2s : list (G2 C);
    pp_Gt : GT C;
  }.

  (** pp/pointproofs.go:63-65 *)
  Definition PP_Size (pp : PP) : nat :=
    length (G1v_Bytes (pp_G1s pp)) + length (G2v_Bytes (pp_G2s pp)) + length (encT C (pp_Gt pp)).

  (** pp/pointproofs.go:67-77: the digest over all parameters. *)
  Definition pp_digest (G1s : list (G1 C)) (G2s : list (G2 C)) (Gt : GT C) : bytes :=
    sha256 C (concat (enc1 C <$> G1s) ++ concat (enc2 C <$> G2s) ++ encT C Gt).

  (** c.GenGt (mathlib): the pairing of the generators. *)
  Definition GenGt : GT C := pair C (gen1 C) (gen2 C).

  (** pp/pointproofs.go:25-61; the random trapdoor α (line 26) is an argument. *)
  Definition NewPublicParams (N : nat) (α : Zr) : PP :=
    let g1α := fun i => gmul (α ^ i) (gen1 C) in
    let g2α := fun i => gmul (α ^ i) (gen2 C) in
    let G1s := (g1α <$> seq 1 N) ++ [gen1 C] ++ (g1α <$> seq (N + 2) (2 * N + 1 - (N + 2))) in
    let G2s := g2α <$> seq 1 N in
    let Gt := gmul (α ^ (N + 1)) GenGt in
    MkPP (pp_digest G1s G2s Gt) N G1s G2s Gt.

  (** pp/pointproofs.go:79-90 *)
  Definition Commit (pp : PP) (m : list Zr) : res (G1 C) :=
    check! (length m =? pp_N pp)%nat in
    let! powersOfAlpha := mapM (fun i => idx (pp_G1s pp) i) (seq 0 (pp_N pp)) in
    let! l := G1v_MulV powersOfAlpha m in
    G1v_Sum l.

  (** pp/pointproofs.go:92-114 *)
  Definition Open (pp : PP) (i : nat) (m : list Zr) : res (Zr * G1 C) :=
    check! (i <? pp_N pp)%nat in
    let shift := (pp_N pp - i)%nat in
    let js := filter (fun j => j <> (i + 1)%nat) (seq 1 (pp_N pp)) in
    let! elements := mapM (fun j => idx (pp_G1s pp) (shift + j - 1)) js in
    let! exponents := mapM (fun j => idx m (j - 1)) js in
    let! l := G1v_MulV elements exponents in
    let! π := G1v_Sum l in
    let! mi := idx m i in
    Ret (mi, π).

  (** pp.G2s[pp.N-i-1] (pp/pointproofs.go:117, 155) *)
  Definition g2_at (pp : PP) (i : nat) : res (G2 C) :=
    idxZ (pp_G2s pp) (Z.of_nat (pp_N pp) - Z.of_nat i - 1).

  (** pp/pointproofs.go:116-125 *)
  Definition Verify (pp : PP) (mi : Zr) (π : G1 C) (Cm : G1 C) (i : nat) : res error :=
    let! g2 := g2_at pp i in
    let! lhs := G1v_InnerProd [Cm] [g2] in
    let! rhs := G1v_InnerProd [π] [gen2 C] in
    let rhs := gadd rhs (gmul mi (pp_Gt pp)) in
    if geqb lhs rhs then Ret nil_error else Ret (Err "is not an element in index").

  (** pp/pointproofs.go:127-132; the Go code updates C in place, the model returns it. *)
  Definition Update (pp : PP) (Cm : G1 C) (m : list Zr) (mi : Zr) (i : nat) : res (G1 C) :=
    let! g := idx (pp_G1s pp) i in
    let! old := idx m i in
    let prevG := gmul old g in
    let nextG := gmul mi g in
    Ret (gadd (gadd Cm (gopp prevG)) nextG).

  (** Type of the random-oracle argument of Aggregate and VerifyAggregation (pp/pointproofs.go:134,147) *)
  Definition ROfun : Type := PP -> list (G1 C) -> nat -> res Zr.

  (** pp/pointproofs.go:134-145 *)
  Definition Aggregate (pp : PP) (commitments proofs : list (G1 C)) (RO : ROfun) : res (G1 C) :=
    check! (length proofs =? length commitments)%nat in
    let! π := mapM (fun j => let! p := idx proofs j in let! x := RO pp commitments j in Ret (gmul x p))
                   (seq 0 (length proofs)) in
    G1v_Sum π.

  (** pp/pointproofs.go:147-168 *)
  Definition VerifyAggregation (pp : PP) (indices : list nat) (commitments : list (G1 C)) (π : G1 C)
      (Σ : Zr) (RO : ROfun) : res error :=
    let! exponents := mapM (fun i => RO pp commitments i) (seq 0 (length indices)) in
    let! g2s := mapM (fun i => g2_at pp i) indices in
    let! g2s := G2v_Mulv g2s exponents in
    let! lhs := G1v_InnerProd commitments g2s in
    let! πg2 := G1v_InnerProd [π] [gen2 C] in
    let rhs := gadd (gmul Σ (pp_Gt pp)) πg2 in
    if geqb rhs lhs then Ret nil_error else Ret (Err "invalid aggregation").

  (** pp/pointproofs.go:170-180; byte(i) truncates the index. *)
  Definition RO : ROfun := fun pp cs i =>
    FieldElementFromBytes (sha256 C (pp_Digest pp ++ [(Z.of_nat i mod 256)%Z] ++ concat (enc1 C <$> cs))).
End PP.
Arguments PP : clear implicits.
Arguments ROfun : clear implicits.
