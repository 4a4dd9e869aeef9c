(** Model of /repo/bp/range.go (aggregated range proof for values below 2^63). *)
From Verif Require Export Ir_facts.
Local Open Scope Zr_scope.

(** bp/range.go:19, 83, 166: m = 63 *)
Definition rp_m : nat := 63.

(** bp/range.go:314-320 *)
Definition expand (x : Zr) (n : nat) : list Zr := replicate n x.

(** bits.Len16 *)
Definition Len16 (n : Z) : nat := if (n =? 0)%Z then 0%nat else S (Z.to_nat (Z.log2 n)).
(** bp/range.go:322-333: the loop writes result[i] for the i-th bit and panics when i leaves the slice.
    A uint16 has at most 16 bits, so 17 iterations suffice. *)
Fixpoint bd_loop (fuel : nat) (n : Z) (i bitNum : nat) : res (list Z) :=
  match fuel with
  | O => Hang
  | S fuel =>
    if (n =? 0)%Z then Ret (replicate (bitNum - i) 0%Z)
    else check! (i <? bitNum)%nat in
         let! rest := bd_loop fuel (Z.shiftr n 1) (S i) bitNum in Ret (Z.land n 1 :: rest)
  end.
Definition bitDecomposition (n max : Z) : res (list Z) := bd_loop 17 n 0 (Len16 max).

(** bp/range.go:105-109 and 202-206.  The loop variable is a uint16: when n does not fit the rest of f
    stays nil, here: f is shorter than n and reading the rest panics. *)
Definition compute_f (n : nat) (xs : list Zr) : res (list Zr) :=
  mapM (fun i => let! iBits := bitDecomposition (Z.of_nat i) ((uint16 n - 1) mod 2 ^ 16) in
                 rbind (Vec_PowBitVec xs iBits) Vec_Product) (seq 0 (Z.to_nat (uint16 n))).

(** bp/range.go:302-312 *)
Definition computeD (n m : nat) (f : list Zr) (x : Zr) : res (list Zr) :=
  let! rows := mapM (fun i => let! fi := idx f i in Ret ((fun j => Pow2 j * fi) <$> seq 0 m)) (seq 0 n) in
  Ret (concat rows ++ Vec_Mul f x).

Section Range.
  Context {C : Curve}.

  (** bp/range.go:12-16 *)
  Record RPPP : Type := MkRPPP {
    rp_G : G1 C; rp_H : G1 C; rp_F : G1 C;
    rp_Gs : list (G1 C); rp_Hs : list (G1 C); rp_Fs : list (G1 C);
    rp_digest : bytes }.

  (** bp/range.go:38-53: the digest is computed once and cached; [rp_digest] is the cache. *)
  Definition rp_fresh_digest (pp : RPPP) : bytes :=
    sha256 C (enc1 C (rp_G pp) ++ enc1 C (rp_H pp) ++ enc1 C (rp_F pp) ++
              G1v_Bytes (rp_Gs pp) ++ G1v_Bytes (rp_Hs pp) ++ G1v_Bytes (rp_Fs pp)).
  Definition rp_Digest (pp : RPPP) : bytes :=
    if (length (rp_digest pp) =? 0)%nat then rp_fresh_digest pp else rp_digest pp.

  (** bp/range.go:18-32 *)
  Definition NewRangeProofPublicParams (n : nat) : res RPPP :=
    let! G := idx (RandGenVec (C:=C) 1 "range proof G") 0 in
    let! H := idx (RandGenVec (C:=C) 1 "range proof H") 0 in
    let! F := idx (RandGenVec (C:=C) 1 "range proof F") 0 in
    let Fs := RandGenVec (n * (rp_m + 1)) "range proof Fs" in
    let Hs := RandGenVec (n * (rp_m + 1)) "range proof Hs" in
    let Gs := RandGenVec n "range proof Gs" in
    let pp := MkRPPP G H F Gs Hs Fs [] in
    Ret (MkRPPP G H F Gs Hs Fs (rp_Digest pp)).

  (** bp/range.go:34-36 *)
  Definition RPPP_Size (pp : RPPP) : nat :=
    length (G1v_Bytes (rp_Gs pp)) + length (G1v_Bytes (rp_Hs pp)) + length (G1v_Bytes (rp_Fs pp)) +
    length (enc1 C (rp_G pp)) + length (enc1 C (rp_H pp)) + length (enc1 C (rp_F pp)).

  (** bp/range.go:55-64 *)
  Record RangeProof : Type := MkRP {
    rp_Δ : list (G1 C * G1 C * G1 C); rp_u : Zr;
    rp_W : G1 C; rp_γ : Zr;
    rp_Π : IPProof C; rp_c : Zr;
    rp_Q : G1 C; rp_R : G1 C; rp_C1 : G1 C; rp_C2 : G1 C;
    rp_τ : Zr; rp_ρ : Zr }.

  (** bp/range.go:66-79 *)
  Definition RangeProof_Size (rp : RangeProof) : nat :=
    length (Zr_Bytes (rp_τ rp)) + length (Zr_Bytes (rp_ρ rp)) + length (enc1 C (rp_Q rp)) + length (enc1 C (rp_R rp)) +
    length (enc1 C (rp_C1 rp)) + length (enc1 C (rp_C2 rp)) + length (Zr_Bytes (rp_c rp)) + IPProof_Size (rp_Π rp) +
    length (Zr_Bytes (rp_γ rp)) + length (enc1 C (rp_W rp)) + length (Zr_Bytes (rp_u rp)) +
    sum_list ((fun d => length (enc1 C d.1.1) + length (enc1 C d.1.2) + length (enc1 C d.2))%nat <$> rp_Δ rp).

  (** bp/range.go:335-343 *)
  Definition rangeProofRO1 (pp : RPPP) (V W Q : G1 C) : res Zr :=
    FieldElementFromBytes (sha256 C (rp_Digest pp ++ enc1 C V ++ enc1 C W ++ enc1 C Q)).
  (** bp/range.go:291-300 *)
  Definition computeZ (pp : RPPP) (C1 C2 Q R : G1 C) (y0 y1 : bytes) : res Zr :=
    FieldElementFromBytes (randomOracle Q R (rp_Digest pp ++ enc1 C C1 ++ enc1 C C2 ++ y0 ++ y1)).
  (** bp/range.go:113-120 and 216-223: b is 0 for y0 and 1 for y1 *)
  Definition rp_y (pp : RPPP) (b : Z) (x : Zr) (Q R : G1 C) : res Zr :=
    FieldElementFromBytes (randomOracle Q R ([b] ++ rp_Digest pp ++ Zr_Bytes x)).
  (** bp/range.go:280-289 *)
  Definition computeP (pp : RPPP) (ρ : Zr) (Q R : G1 C) (z : Zr) (y1v : list Zr) (n m : nat)
      (Fprime : list (G1 C)) (d : list Zr) (y1 : Zr) : res (G1 C) :=
    let P := gmul ρ (rp_F pp) in
    let P := gadd P Q in
    let P := gadd P (gmul z R) in
    let! Hs' := slice_to (n * m) (rp_Hs pp) in
    let! S1 := rbind (G1v_MulV Hs' y1v) G1v_Sum in
    let P := gadd P S1 in
    let! S2 := rbind (G1v_MulV Fprime (Vec_Mul d (y1 * y1))) G1v_Sum in
    let P := gadd P S2 in
    let! Fs' := slice_to (n * m) (rp_Fs pp) in
    let! S3 := rbind (G1v_MulV Fs' y1v) G1v_Sum in
    Ret (gadd P S3).

  (** bp/range.go:93-97 and 192-196 *)
  Definition ppRdx (pp : RPPP) : res (bpPP C) :=
    let! U := idx (RandGenVec (C:=C) 1 "U range proof") 0 in
    RecomputeDigest (MkBpPP [] (rp_Gs pp) [] U).
  (** bp/range.go:124-134 and 242-254 *)
  Definition rp_Fprime (pp : RPPP) (y0 : Zr) : res (list (G1 C)) :=
    G1v_MulV (rp_Fs pp) (PowerSeries (length (rp_Fs pp)) (invertZr y0)).
  Definition rp_ipaPP (pp : RPPP) (Fprime : list (G1 C)) : res (bpPP C) :=
    let! U := idx (RandGenVec (C:=C) 1 "u") 0 in
    RecomputeDigest (MkBpPP [] (rp_Hs pp) Fprime U).

  (** bp/range.go:81-160.  Lines 136-137 overwrite C and P of the inner proof: the proof after the call
      is returned along with the error (unchanged when the code returns before those lines). *)
  Definition VerifyRange_st (pp : RPPP) (rp : RangeProof) (V : G1 C) : res (RangeProof * error) :=
    let m := rp_m in
    let n := length (rp_Gs pp) in
    let! x := rangeProofRO1 pp V (rp_W rp) (rp_Q rp) in
    let U := gadd (gadd (gmul (rp_γ rp) (rp_F pp)) V) (gmul x (rp_W rp)) in
    let! rdx := ppRdx pp in
    let! ir := IterativeVerify rdx U (rp_Δ rp) (rp_u rp) in
    match ir with
    | inr err => Ret (rp, Err ("iterated reduction proof invalid: " +:+ err))
    | inl (xs, u) =>
      let xs := Vec_Reverse xs in
      let! f := compute_f n xs in
      let! d := computeD n m f x in
      let! y0 := rp_y pp 0 x (rp_Q rp) (rp_R rp) in
      let! y1 := rp_y pp 1 x (rp_Q rp) (rp_R rp) in
      let y0v := PowerSeries (n * m) y0 in
      let y1v := Vec_Mul (expand (IntToZr 1) (n * m)) y1 in
      let! z := computeZ pp (rp_C1 rp) (rp_C2 rp) (rp_Q rp) (rp_R rp) (Zr_Bytes y0) (Zr_Bytes y1) in
      let! Fprime := rp_Fprime pp y0 in
      let! ipaPP := rp_ipaPP pp Fprime in
      let! P := computeP pp (rp_ρ rp) (rp_Q rp) (rp_R rp) z y1v n m Fprime d y1 in
      let Π := MkIPP (ipp_LRs (rp_Π rp)) (ipp_a (rp_Π rp)) (ipp_b (rp_Π rp)) P (rp_c rp) in
      let rp' := MkRP (rp_Δ rp) (rp_u rp) (rp_W rp) (rp_γ rp) Π (rp_c rp) (rp_Q rp) (rp_R rp) (rp_C1 rp) (rp_C2 rp) (rp_τ rp) (rp_ρ rp) in
      let! e := IPP_Verify Π ipaPP in
      match e with
      | Err err => Ret (rp', Err ("inner product proof invalid: " +:+ err))
      | nil_error =>
        let! β1 := Vec_InnerProd (expand (IntToZr 1) (n * m)) y0v in
        let! β2 := Vec_InnerProd (expand (IntToZr 1) (n * m)) y0v in
        let! d' := slice_to (n * m) d in
        let! β3 := Vec_InnerProd (expand (IntToZr 1) (n * m)) d' in
        let c0 := β3 * (y1 * y1 * y1) + y1 * y1 * (u + β2) + β1 * y1 in
        let left_ := gadd (gadd (gmul z (rp_C1 rp)) (gmul (z * z) (rp_C2 rp))) (gmul c0 (rp_G pp)) in
        let right_ := gadd (gmul (rp_c rp) (rp_G pp)) (gmul (rp_τ rp) (rp_H pp)) in
        if geqb left_ right_ then Ret (rp', nil_error) else Ret (rp', Err "invalid range proof")
      end
    end.
  Definition VerifyRange (pp : RPPP) (rp : RangeProof) (V : G1 C) : res error :=
    let! r := VerifyRange_st pp rp V in Ret (snd r).

  (** The random values of one run of ProveRange, in the order of the code (lines 168, 178, 210, 232). *)
  Record RangeCoins : Type := MkCoins {
    co_w : list Zr; co_rPrime : Zr; co_ν : Zr; co_η : Zr;
    co_s : list Zr; co_t : list Zr; co_τ1 : Zr; co_τ2 : Zr }.
  (** RandVec(n) has length n (common/math.go:101-113). *)
  Definition coins_ok (n : nat) (co : RangeCoins) : Prop :=
    length (co_w co) = n /\ length (co_s co) = (n * rp_m + n)%nat /\ length (co_t co) = (n * rp_m)%nat.

  (** bp/range.go:162-258: everything up to the self-check; also returns the parameters of the inner
      argument. *)
  Definition ProveRange_unchecked (pp : RPPP) (V : G1 C) (v : list Zr) (r : Zr) (co : RangeCoins)
    : res (RangeProof * bpPP C) :=
    let n := length (rp_Gs pp) in
    let m := rp_m in
    let w := co_w co in
    let! SW := rbind (G1v_MulV (rp_Gs pp) w) G1v_Sum in
    let W := gadd (gmul (co_rPrime co) (rp_F pp)) SW in
    let! bits := Vec_Bits v m in
    let vBits := IntsToZr bits ++ w in
    let! vBits_nm := slice_to (n * m) vBits in
    let! wCaret := Vec_Sub (expand (IntToZr 1) (n * m)) vBits_nm in
    let! S1 := rbind (G1v_MulV (rp_Hs pp) vBits) G1v_Sum in
    let! Fs' := slice_to (n * m) (rp_Fs pp) in
    let! S2 := rbind (G1v_MulV Fs' wCaret) G1v_Sum in
    let Q := gadd (gadd (gmul (co_ν co) (rp_F pp)) S1) S2 in
    let! x := rangeProofRO1 pp V W Q in
    let γ := NegZr (r + x * co_rPrime co) in
    let U := gadd (gadd (gmul γ (rp_F pp)) V) (gmul x W) in
    let! rdx := ppRdx pp in
    let! wRdx := Vec_Add v (Vec_Mul w x) in
    let! '(Δ, xs, u) := IterativeReduce rdx wRdx U in
    let xs := Vec_Reverse xs in
    let! f := compute_f n xs in
    let! d := computeD n m f x in
    let s := co_s co in let t := co_t co in
    let! S3 := rbind (G1v_MulV (rp_Hs pp) s) G1v_Sum in
    let! S4 := rbind (G1v_MulV Fs' t) G1v_Sum in
    let R := gadd (gadd (gmul (co_η co) (rp_F pp)) S3) S4 in
    let! y0 := rp_y pp 0 x Q R in
    let! y1 := rp_y pp 1 x Q R in
    let y0v := PowerSeries (n * m) y0 in
    let y1v := Vec_Mul (expand (IntToZr 1) (n * m)) y1 in
    let zs := expand (IntToZr 0) n in
    let! aPrime := Vec_Add vBits (Vec_Concat y1v zs) in
    let! b1 := Vec_Add (Vec_Mul d (y1 * y1)) (Vec_Mul (Vec_Concat y0v zs) y1) in
    let! wy := Vec_HadamardProd wCaret y0v in
    let! bPrime := Vec_Add b1 (Vec_Concat wy zs) in
    let! y0t := Vec_HadamardProd y0v t in
    let! aP_nm := slice_to (n * m) aPrime in
    let! c1a := Vec_InnerProd aP_nm y0t in
    let! c1b := Vec_InnerProd s bPrime in
    let c1 := c1a + c1b in
    let! s_nm := slice_to (n * m) s in
    let! c2 := Vec_InnerProd s_nm y0t in
    let C1 := gadd (gmul c1 (rp_G pp)) (gmul (co_τ1 co) (rp_H pp)) in
    let C2 := gadd (gmul c2 (rp_G pp)) (gmul (co_τ2 co) (rp_H pp)) in
    let! z := computeZ pp C1 C2 Q R (Zr_Bytes y0) (Zr_Bytes y1) in
    let ρ := NegZr (co_ν co + co_η co * z) in
    let τ := co_τ1 co * z + co_τ2 co * (z * z) in
    let! Fprime := rp_Fprime pp y0 in
    let! a := Vec_Add aPrime (Vec_Mul s z) in
    let! b := Vec_Add bPrime (Vec_Mul (Vec_Concat y0t zs) z) in
    let! c := Vec_InnerProd a b in
    let! ipaPP := rp_ipaPP pp Fprime in
    let! ipa := NewInnerProdArgument ipaPP a b in
    let! ipp := IPA_Prove ipa in
    Ret (MkRP Δ u W γ ipp c Q R C1 C2 τ ρ, ipaPP).
  (** bp/range.go:162-278 *)
  Definition ProveRange (pp : RPPP) (V : G1 C) (v : list Zr) (r : Zr) (co : RangeCoins) : res RangeProof :=
    let! '(rp, ipaPP) := ProveRange_unchecked pp V v r co in
    let! e := IPP_Verify (rp_Π rp) ipaPP in
    match e with nil_error => Ret rp | Err _ => Panic end.
End Range.
Arguments RPPP : clear implicits.
Arguments RangeProof : clear implicits.
