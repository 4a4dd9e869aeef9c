(** Model of /repo/poe/poe.go (equality of entries of committed vectors). *)
From Verif Require Export Pp_facts Range_prover.
Local Open Scope Zr_scope.

Section Poe.
  Context {C : Curve}.

  (** poe/poe.go:21-26 *)
  Record poePP : Type := MkPoePP {
    pe_Digest : bytes; pe_G : list (G1 C); pe_H : list (G1 C); pe_F : G1 C; pe_PP : PP C }.

  (** poe/poe.go:28-30 *)
  Definition poePP_Size (pp : poePP) : nat :=
    length (G1v_Bytes (pe_G pp)) + length (G1v_Bytes (pe_H pp)) + length (enc1 C (pe_F pp)) + PP_Size (pe_PP pp).

  (** poe/poe.go:44-51 *)
  Definition poe_SetupDigest (pp : poePP) : poePP :=
    MkPoePP (sha256 C (G1v_Bytes (pe_G pp) ++ G1v_Bytes (pe_H pp) ++ enc1 C (pe_F pp) ++ pp_Digest (pe_PP pp)))
      (pe_G pp) (pe_H pp) (pe_F pp) (pe_PP pp).

  (** poe/poe.go:32-42; the trapdoor α of pp.NewPublicParams is an argument. *)
  Definition poe_NewPublicParams (n m : nat) (α : Zr) : res poePP :=
    let! F := idx (RandGenVec (C:=C) 1 "POE F") 0 in
    Ret (poe_SetupDigest (MkPoePP [] (RandGenVec m "POE G") (RandGenVec m "POE H") F (NewPublicParams n α))).

  (** Type of the field RO (poe/poe.go:54, 251): the hash of group elements, integers and a digest to n
      scalars. *)
  Definition poeRO : Type := list (G1 C) -> list nat -> bytes -> nat -> res (list Zr).

  (** poe/poe.go:284-299 *)
  Definition compressParameters (gs : list (G1 C)) (integers : list nat) (ppDigest : bytes) : bytes :=
    sha256 C (concat (enc1 C <$> gs) ++ concat ((fun n => be_bytes 2 (Z.of_nat n)) <$> integers) ++ ppDigest).
  (** poe/poe.go:257-277; be_bytes 2 truncates to 16 bits like uint16. *)
  Definition poe_RO : poeRO := fun gs integers ppDigest n =>
    let key := compressParameters gs integers ppDigest in
    mapM (fun i => FieldElementFromBytes (hmac C key (be_bytes 2 (Z.of_nat i)))) (seq 0 n).

  (** poe/poe.go:279-282 *)
  Definition poe_negZr (x : Zr) : Zr := IntToZr 0 - x.

  (** xs[len(xs)-1-i], panics if negative *)
  Definition idx_last {A} (l : list A) (i : nat) : res A := idxZ l (Z.of_nat (length l) - 1 - Z.of_nat i).

  (** ** One pair *)
  (** poe/poe.go:250-255.  Simplification: the indices are natural numbers (a negative one panics at
      line 347 or 324). *)
  Record Equality : Type := MkEq { eq_RO : poeRO; eq_PP : poePP; eq_V : G1 C; eq_W : G1 C; eq_I : nat; eq_J : nat }.
  (** poe/poe.go:301-306 *)
  Record eqProof : Type := MkEqProof { ep_C : Zr; ep_V : G1 C; ep_W : G1 C; ep_Ω : G1 C }.

  (** poe/poe.go:308-341 *)
  Definition Equality_Verify (e : Equality) (Υ : eqProof) : res error :=
    let pp := pe_PP (eq_PP e) in
    let! xl := eq_RO e [eq_V e; eq_W e; ep_V Υ; ep_W Υ] [] (pe_Digest (eq_PP e)) 1%nat in
    let! x := idx xl 0 in
    let! ts := eq_RO e [eq_V e; eq_W e; gmul x (ep_V Υ); gmul x (ep_W Υ); gmul (ep_C Υ) (gen1 C)] [eq_I e; eq_J e]
                 (pe_Digest (eq_PP e)) 2%nat in
    let! t0 := idx ts 0 in let! t1 := idx ts 1 in
    let VVx := gmul t0 (gadd (gmul x (ep_V Υ)) (eq_V e)) in
    let WWx := gmul t1 (gadd (gmul x (ep_W Υ)) (eq_W e)) in
    let! g2I := idx_last (pp_G2s pp) (eq_I e) in
    let! r := G1v_InnerProd [VVx] [g2I] in
    let! g2J := idx_last (pp_G2s pp) (eq_J e) in
    let! l := G1v_InnerProd [WWx] [g2J] in
    let numerator := gadd r l in
    let! l := G1v_InnerProd [ep_Ω Υ] [gen2 C] in
    let! g10 := idx (pp_G1s pp) 0 in
    let! g2l := idx_last (pp_G2s pp) 0 in
    let! r := G1v_InnerProd [g10] [g2l] in
    let r := gmul (ep_C Υ * (t0 + t1)) r in
    let denominator := gadd l r in
    if geqb numerator denominator then Ret nil_error else Ret (Err "PoE invalid").

  (** poe/poe.go:345-398; the random u, η, ν (line 357) are arguments. *)
  Definition Equality_Prove (e : Equality) (v w : list Zr) (u η ν : Zr) : res eqProof :=
    let pp := pe_PP (eq_PP e) in
    let! vI := idx v (eq_I e) in let! wJ := idx w (eq_J e) in
    check! zeqb vI wJ in
    check! (length v =? length w)%nat in
    let n := length v in
    let! g1I := idx (pp_G1s pp) (eq_I e) in
    let! g1n := idxZ (pp_G1s pp) (Z.of_nat n - 1) in
    let V := gadd (gmul u g1I) (gmul ν g1n) in
    let! gl := idx_last (pp_G1s pp) (eq_I e) in
    let ΩV := gmul ν gl in
    let! g1J := idx (pp_G1s pp) (eq_J e) in
    let W := gadd (gmul u g1J) (gmul η g1n) in
    let! gl := idx_last (pp_G1s pp) (eq_J e) in
    let ΩW := gmul η gl in
    let! xl := eq_RO e [eq_V e; eq_W e; V; W] [] (pe_Digest (eq_PP e)) 1%nat in
    let! x := idx xl 0 in
    let c := vI + u * x in
    let! ts := eq_RO e [eq_V e; eq_W e; gmul x V; gmul x W; gmul c (gen1 C)] [eq_I e; eq_J e] (pe_Digest (eq_PP e)) 2%nat in
    let! t0 := idx ts 0 in let! t1 := idx ts 1 in
    let! '(_, ΩVpp) := Open pp (eq_I e) v in
    let! '(_, ΩWpp) := Open pp (eq_J e) w in
    let ΩV := gmul t0 (gadd (gmul x ΩV) ΩVpp) in
    let ΩW := gmul t1 (gadd (gmul x ΩW) ΩWpp) in
    Ret (MkEqProof c V W (gadd ΩV ΩW)).

  (** ** Many pairs *)
  (** poe/poe.go:53-58 *)
  Record Equalities : Type := MkEqs {
    es_RO : poeRO; es_PP : poePP; es_V : list (G1 C); es_W : list (G1 C); es_I : list nat; es_J : list nat }.
  (** poe/poe.go:60-65 *)
  Record AggProof : Type := MkAP {
    ap_IPP : IPProof C; ap_c : Zr; ap_ρ : Zr; ap_U : G1 C; ap_V : G1 C; ap_Ω : G1 C;
    ap_Waggr : list (G1 C); ap_Vaggr : list (G1 C) }.
  (** poe/poe.go:67-69 *)
  Definition AggProof_Size (p : AggProof) : nat :=
    IPProof_Size (ap_IPP p) + length (Zr_Bytes (ap_c p)) + length (Zr_Bytes (ap_ρ p)) + length (enc1 C (ap_U p)) +
    length (enc1 C (ap_V p)) + length (enc1 C (ap_Ω p)) + length (G1v_Bytes (ap_Waggr p)) + length (G1v_Bytes (ap_Vaggr p)).

  (** poe/poe.go:114-120 and 213-218 *)
  Definition poe_bpPP (pp : poePP) : res (bpPP C) :=
    let! u := idx (RandGenVec (C:=C) 1 "u") 0 in
    RecomputeDigest (MkBpPP [] (pe_G pp) (pe_H pp) u).

  (** poe/poe.go:88-96: e.PP.PP.G2s[n-1-I[k]] for k < m *)
  Definition poe_g2s (pp : PP C) (I : list nat) (m : nat) : res (list (G2 C)) :=
    mapM (fun k => let! i := idx I k in idxZ (pp_G2s pp) (Z.of_nat (pp_N pp) - 1 - Z.of_nat i)) (seq 0 m).

  (** poe/poe.go:71-127.  Lines 122-123 overwrite the claim in proof.IPP, which is not read before. *)
  Definition Equalities_Verify (e : Equalities) (proof : AggProof) : res error :=
    let pp := pe_PP (es_PP e) in
    let groupElements := ap_Vaggr proof ++ ap_Waggr proof ++ es_V e ++ es_W e in
    let! xl := es_RO e groupElements [] (pe_Digest (es_PP e)) 1%nat in
    let! x := idx xl 0 in
    let m := length (es_V e) in
    let groupElements := groupElements ++ [ap_U proof; ap_V proof] in
    let! ts := es_RO e groupElements [] (pe_Digest (es_PP e)) (2 * m)%nat in
    let! g2sV := poe_g2s pp (es_I e) m in
    let! g2sW := poe_g2s pp (es_J e) m in
    let! te := Vec_Evens ts in let! to := Vec_Odds ts in
    let! A := G1v_Add (es_V e) (G1v_Mul (ap_Vaggr proof) x) in
    let! A := G1v_MulV A te in
    let! numV := G1v_InnerProd A g2sV in
    let! B := G1v_Add (es_W e) (G1v_Mul (ap_Waggr proof) x) in
    let! B := G1v_MulV B to in
    let! numW := G1v_InnerProd B g2sW in
    let numerator := gadd numV numW in
    let! denominator := G1v_InnerProd [ap_Ω proof] [gen2 C] in
    let! g10 := idx (pp_G1s pp) 0 in
    let! g2l := idx_last (pp_G2s pp) 0 in
    let! d2 := G1v_InnerProd [gmul (ap_c proof) g10] [g2l] in
    let denominator := gadd denominator d2 in
    if geqb numerator denominator then
      let! b := Vec_Add te to in
      let! HB := rbind (G1v_MulV (pe_H (es_PP e)) b) G1v_Sum in
      let P := gadd (gadd (gadd (gmul (ap_ρ proof) (pe_F (es_PP e))) (gmul x (ap_U proof))) (ap_V proof)) HB in
      let! bp := poe_bpPP (es_PP e) in
      let π := ap_IPP proof in
      IPP_Verify (MkIPP (ipp_LRs π) (ipp_a π) (ipp_b π) P (ap_c proof)) bp
    else Ret (Err "PoE invalid: aggregation condition not satisfied").

  (** The values of one iteration of the loop at poe/poe.go:148-171 *)
  Record poeIter : Type := MkIter { it_V : G1 C; it_Ωv : G1 C; it_W : G1 C; it_Ωw : G1 C; it_ΩvPP : G1 C; it_ΩwPP : G1 C }.
  (** poe/poe.go:148-171, iteration k with the random uk, ηk, νk *)
  Definition poe_iter (e : Equalities) (n : nat) (vs ws : list (list Zr)) (coins : list (Zr * Zr * Zr)) (k : nat) : res poeIter :=
    let pp := pe_PP (es_PP e) in
    let! '(uk, ηk, νk) := idx coins k in
    let! Ik := idx (es_I e) k in let! Jk := idx (es_J e) k in
    let! gI := idx (pp_G1s pp) Ik in
    let! gn := idxZ (pp_G1s pp) (Z.of_nat n - 1) in
    let! lI := idx_last (pp_G1s pp) Ik in
    let! gJ := idx (pp_G1s pp) Jk in
    let! lJ := idx_last (pp_G1s pp) Jk in
    let! vk := idx vs k in
    let! '(_, ΩVpp) := Open pp Ik vk in
    let! wk := idx ws k in
    let! '(_, ΩWpp) := Open pp Jk wk in
    Ret (MkIter (gadd (gmul uk gI) (gmul νk gn)) (gmul νk lI) (gadd (gmul uk gJ) (gmul ηk gn)) (gmul ηk lJ) ΩVpp ΩWpp).

  (** poe/poe.go:131-236; the random uk, ηk, νk (line 149) and r1, r2 (line 181) are arguments. *)
  Definition Equalities_Prove (e : Equalities) (vs ws : list (list Zr)) (coins : list (Zr * Zr * Zr)) (r1 r2 : Zr) : res AggProof :=
    let pp := es_PP e in
    let m := length (es_V e) in
    (* validateInputLength, poe/poe.go:238-248 *)
    check! (length (es_W e) =? m)%nat in
    check! (length vs =? m)%nat in
    check! (length ws =? m)%nat in
    let! vs0 := idx vs 0 in
    let n := length vs0 in
    let! its := mapM (poe_iter e n vs ws coins) (seq 0 m) in
    let Vaggr := it_V <$> its in let Waggr := it_W <$> its in
    let u := (fun c => fst (fst c)) <$> take m coins in
    let groupElements := Vaggr ++ Waggr ++ es_V e ++ es_W e in
    let! xl := es_RO e groupElements [] (pe_Digest pp) 1%nat in
    let! x := idx xl 0 in
    let! v := mapM (fun i => let! vi := idx vs i in let! Ii := idx (es_I e) i in idx vi Ii) (seq 0 m) in
    let! GU := rbind (G1v_MulV (pe_G pp) u) G1v_Sum in
    let U := gadd (gmul r1 (pe_F pp)) GU in
    let! GV := rbind (G1v_MulV (pe_G pp) v) G1v_Sum in
    let V := gadd (gmul r2 (pe_F pp)) GV in
    let groupElements := groupElements ++ [U; V] in
    let! ts := es_RO e groupElements [] (pe_Digest pp) (2 * m)%nat in
    let! te := Vec_Evens ts in let! to := Vec_Odds ts in
    let! A := G1v_Add (it_ΩvPP <$> its) (G1v_Mul (it_Ωv <$> its) x) in
    let! Ω1 := rbind (G1v_MulV A te) G1v_Sum in
    let! B := G1v_Add (it_ΩwPP <$> its) (G1v_Mul (it_Ωw <$> its) x) in
    let! Ω2 := rbind (G1v_MulV B to) G1v_Sum in
    let Ω := gadd Ω1 Ω2 in
    let! a := Vec_Add (Vec_Mul u x) v in
    let! b := Vec_Add te to in
    let ρ := poe_negZr (r1 * x + r2) in
    let! HB := rbind (G1v_MulV (pe_H pp) b) G1v_Sum in
    let P := gadd (gadd (gadd (gmul ρ (pe_F pp)) (gmul x U)) V) HB in
    let! bp := poe_bpPP pp in
    let! ipa := NewInnerProdArgument bp a b in
    let! ipp := IPA_Prove (MkIPA (ipa_pp ipa) (ipa_a ipa) (ipa_b ipa) (ipa_C ipa) P) in
    Ret (MkAP ipp (ipp_C ipp) ρ U V Ω Waggr Vaggr).
End Poe.
Arguments poePP : clear implicits.
Arguments poeRO : clear implicits.
Arguments Equality : clear implicits.
Arguments eqProof : clear implicits.
Arguments Equalities : clear implicits.
Arguments AggProof : clear implicits.
Arguments poeIter : clear implicits.
