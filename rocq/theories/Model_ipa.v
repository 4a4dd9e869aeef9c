(** Model of /repo/bp/innerprod.go (Bulletproofs inner-product argument, made non-interactive). *)
From Verif Require Export Common_facts.
Local Open Scope Zr_scope.

(** Go slicing l[:n] and l[n:].  Simplification: the capacity of a slice is its length, so [l[:n]]
    panics as soon as n exceeds the length. *)
Definition slice_to {A} (n : nat) (l : list A) : res (list A) :=
  check! (n <=? length l)%nat in Ret (take n l).
Definition slice_from {A} (n : nat) (l : list A) : res (list A) :=
  check! (n <=? length l)%nat in Ret (drop n l).

Section IPA.
  Context {C : Curve}.

  (** bp/innerprod.go:11-16 *)
  Record bpPP : Type := MkBpPP {
    bp_Digest : bytes;
    bp_G : list (G1 C);
    bp_H : list (G1 C);
    bp_U : G1 C;
  }.

  (** bp/innerprod.go:34-44: the bytes hashed; panics if H is non-empty and shorter than G. *)
  Definition setup_preimage (G H : list (G1 C)) (U : G1 C) : res bytes :=
    match H with
    | [] => Ret (enc1 C U ++ concat (enc1 C <$> G))
    | _ => check! (length G <=? length H)%nat in
           Ret (enc1 C U ++ concat (zip_with (fun g h => enc1 C g ++ enc1 C h) G H))
    end.
  Definition setupDigest (pp : bpPP) : res bpPP :=
    let! pre := setup_preimage (bp_G pp) (bp_H pp) (bp_U pp) in
    Ret (MkBpPP (sha256 C pre) (bp_G pp) (bp_H pp) (bp_U pp)).
  (** bp/innerprod.go:46-48 *)
  Definition RecomputeDigest (pp : bpPP) : res bpPP := setupDigest pp.

  (** bp/innerprod.go:18-28 *)
  Definition bp_NewPublicParams (n : nat) : res bpPP :=
    let! U := idx (RandGenVec (C:=C) 1 "u") 0 in
    setupDigest (MkBpPP [] (RandGenVec n "g") (RandGenVec n "h") U).

  (** bp/innerprod.go:30-32 *)
  Definition bpPP_Size (pp : bpPP) : nat :=
    length (G1v_Bytes (bp_G pp)) + length (G1v_Bytes (bp_H pp)) + length (enc1 C (bp_U pp)).

  (** bp/innerprod.go:50-55 *)
  Record IPArgument : Type := MkIPA {
    ipa_pp : bpPP; ipa_a : list Zr; ipa_b : list Zr; ipa_C : Zr; ipa_P : G1 C }.
  (** bp/innerprod.go:57-62 *)
  Record IPProof : Type := MkIPP {
    ipp_LRs : list (G1 C); ipp_a : Zr; ipp_b : Zr; ipp_P : G1 C; ipp_C : Zr }.

  (** bp/innerprod.go:64-66 *)
  Definition IPProof_Size (p : IPProof) : nat :=
    length (G1v_Bytes (ipp_LRs p)) + length (Zr_Bytes (ipp_a p)) + length (Zr_Bytes (ipp_b p))
    + length (enc1 C (ipp_P p)) + length (Zr_Bytes (ipp_C p)).

  (** bp/innerprod.go:80-100, with u = nil as in the only call. *)
  Fixpoint commit_acc (acc : G1 C) (g : list (G1 C)) (a : list Zr) {struct a} : res (G1 C) :=
    match a, g with
    | [], _ => Ret acc
    | x :: a, P :: g => commit_acc (gadd acc (gmul x P)) g a
    | _ :: _, [] => Panic
    end.
  Definition bp_commit (pp : bpPP) (a b : list Zr) : res (G1 C) :=
    check! (length a =? length b)%nat in
    match a, b, bp_G pp, bp_H pp with
    | a0 :: a, b0 :: b, G0 :: G, H0 :: H =>
      let! gAcc := commit_acc (gmul a0 G0) G a in
      let! hAcc := commit_acc (gmul b0 H0) H b in
      Ret (gadd gAcc hAcc)
    | _, _, _, _ => Panic
    end.

  (** bp/innerprod.go:68-78 *)
  Definition NewInnerProdArgument (pp : bpPP) (a b : list Zr) : res IPArgument :=
    let! c := Vec_InnerProd a b in
    let! P := bp_commit pp a b in
    Ret (MkIPA pp a b c P).

  (** bp/innerprod.go:102-117.  Line 107 overwrites the pre-image with pp.Digest, so P is not hashed. *)
  Definition computeInstanceSpecificParams (pp : bpPP) (P : G1 C) (c : Zr) : res (bpPP * G1 C) :=
    let hashPreImage := bp_Digest pp in
    let! x := FieldElementFromBytes (SHA256Digest (C:=C) hashPreImage) in
    let P := gadd P (gmul (x * c) (bp_U pp)) in
    let! newPP := RecomputeDigest (MkBpPP (bp_Digest pp) (bp_G pp) (bp_H pp) (gmul x (bp_U pp))) in
    Ret (newPP, P).

  (** bp/innerprod.go:246-253 *)
  Definition randomOracle (L R : G1 C) (x : bytes) : bytes := sha256 C (enc1 C L ++ enc1 C R ++ x).

  (** bp/innerprod.go:210-214 *)
  Record nextParams : Type := MkNext { np_x : Zr; np_xInv : Zr; np_g : list (G1 C); np_h : list (G1 C); np_P : G1 C }.
  (** bp/innerprod.go:216-244 *)
  Definition computeNextParams (L R : G1 C) (pp : bpPP) (g h : list (G1 C)) (P : G1 C) : res nextParams :=
    let n := (length g / 2)%nat in
    let digest := randomOracle L R (bp_Digest pp) in
    let! x := FieldElementFromBytes digest in
    let xInverse := zinv x in
    let! gL := slice_to n g in let! gR := slice_from n g in
    let! nextG := G1v_HadamardProd (G1v_Mul gL xInverse) (G1v_Mul gR x) in
    let! hL := slice_to n h in let! hR := slice_from n h in
    let! nextH := G1v_HadamardProd (G1v_Mul hL x) (G1v_Mul hR xInverse) in
    let xSquare := x * x in
    let xSquareInv := zinv xSquare in
    let L2 := gmul xSquare L in
    let R2 := gmul xSquareInv R in
    let nextP := gadd (gadd L2 P) R2 in
    Ret (MkNext x xInverse nextG nextH nextP).

  (** bp/innerprod.go:167-208; the recursion halves len(g), so len(g)+1 units of fuel suffice. *)
  Fixpoint ipa_prove (fuel : nat) (pp : bpPP) (a b : list Zr) (P : G1 C) (g h : list (G1 C))
    : res (list (G1 C) * (Zr * Zr)) :=
    match fuel with O => Hang | S fuel =>
    check! (length g =? length h)%nat in
    if (length g =? 1)%nat then
      let! a0 := idx a 0 in let! b0 := idx b 0 in Ret ([], (a0, b0))
    else
      let n := (length g / 2)%nat in
      let! aL := slice_to n a in let! aR := slice_from n a in
      let! bL := slice_to n b in let! bR := slice_from n b in
      let! gL := slice_to n g in let! gR := slice_from n g in
      let! hL := slice_to n h in let! hR := slice_from n h in
      let! cL := Vec_InnerProd aL bR in
      let! cR := Vec_InnerProd aR bL in
      let! Lg := Vec_Exp aL gR in
      let! Lh := Vec_Exp bR hL in
      let L := gadd (gadd Lg Lh) (gmul cL (bp_U pp)) in
      let! Rg := Vec_Exp aR gL in
      let! Rh := Vec_Exp bL hR in
      let R := gadd (gadd Rg Rh) (gmul cR (bp_U pp)) in
      let! np := computeNextParams L R pp g h P in
      let x := np_x np in let xInverse := np_xInv np in
      let! a' := Vec_Add (Vec_Mul aL x) (Vec_Mul aR xInverse) in
      let! b' := Vec_Add (Vec_Mul bL xInverse) (Vec_Mul bR x) in
      let! rest := ipa_prove fuel pp a' b' (np_P np) (np_g np) (np_h np) in
      Ret (L :: R :: fst rest, snd rest)
    end.

  (** bp/innerprod.go:119-132 *)
  Definition IPA_Prove (ipa : IPArgument) : res IPProof :=
    let! '(pp, P) := computeInstanceSpecificParams (ipa_pp ipa) (ipa_P ipa) (ipa_C ipa) in
    let G := bp_G (ipa_pp ipa) in let H := bp_H (ipa_pp ipa) in
    let! '(LRs, ab) := ipa_prove (S (length G)) pp (ipa_a ipa) (ipa_b ipa) P G H in
    Ret (MkIPP LRs (fst ab) (snd ab) (ipa_P ipa) (ipa_C ipa)).

  (** bp/innerprod.go:140-163; every recursive call consumes two elements of LRs. *)
  Fixpoint ipa_verify (pp : bpPP) (P : G1 C) (g h : list (G1 C)) (LRs : list (G1 C)) (a b : Zr) : res error :=
    if (length g =? 1)%nat then
      let! g0 := idx g 0 in
      let! h0 := idx h 0 in
      let expectedP := gadd (gadd (gmul (a * b) (bp_U pp)) (gmul a g0)) (gmul b h0) in
      if geqb expectedP P then Ret nil_error else Ret (Err "P != g^a*h^b*u^c")
    else
      match LRs with
      | L :: R :: LRs =>
        let! np := computeNextParams L R pp g h P in
        ipa_verify pp (np_P np) (np_g np) (np_h np) LRs a b
      | _ => Panic
      end.

  (** bp/innerprod.go:134-137 *)
  Definition IPP_Verify (p : IPProof) (pp : bpPP) : res error :=
    let! '(pp', P) := computeInstanceSpecificParams pp (ipp_P p) (ipp_C p) in
    ipa_verify pp' P (bp_G pp') (bp_H pp') (ipp_LRs p) (ipp_a p) (ipp_b p).
End IPA.
Arguments bpPP : clear implicits.
Arguments IPProof : clear implicits.
Arguments IPArgument : clear implicits.
Arguments nextParams : clear implicits.
