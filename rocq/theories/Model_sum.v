(** Model of /repo/sum/sa.go (sum argument: the last entry of a committed vector is the sum of the others). *)
From Verif Require Export Range_prover.
Local Open Scope Zr_scope.

Section Sum.
  Context {C : Curve}.

  (** sum/sa.go:16-24 *)
  Record sumPP : Type := MkSumPP {
    sp_Digest : bytes; sp_U : G1 C; sp_Gs : list (G1 C); sp_G : G1 C; sp_F : G1 C;
    sp_H : list (G1 C); sp_b : list Zr; sp_B : G1 C }.

  (** sum/sa.go:206-209 *)
  Definition sum_negZr (x : Zr) : Zr := IntToZr 0 - x.

  (** sum/sa.go:37,40-43: n times 1, then the last entry is overwritten; panics for n = 0. *)
  Definition sum_weights (n : nat) : res (list Zr) :=
    let b := replicate n (IntToZr 1) in
    check! (1 <=? n)%nat in Ret (<[(n - 1)%nat := sum_negZr (IntToZr 1)]> b).

  (** sum/sa.go:30-57 *)
  Definition sum_NewPublicParams (n : nat) : res sumPP :=
    let Gs := RandGenVec (C:=C) n "sum argument Gs" in
    let! U := idx (RandGenVec (C:=C) 1 "IPA u") 0 in
    let! G := idx (RandGenVec (C:=C) 1 "sum argument G") 0 in
    let! F := idx (RandGenVec (C:=C) 1 "sum argument F") 0 in
    let H := RandGenVec n "sum argument H" in
    let! b := sum_weights n in
    let! B := rbind (G1v_MulV H b) G1v_Sum in
    let Digest := sha256 C (concat (enc1 C <$> H) ++ enc1 C B ++ enc1 C G ++ enc1 C F) in
    Ret (MkSumPP Digest U Gs G F H b B).

  (** sum/sa.go:26-28 *)
  Definition sumPP_Size (pp : sumPP) : nat :=
    length (enc1 C (sp_U pp)) + length (G1v_Bytes (sp_Gs pp)) + length (enc1 C (sp_G pp)) +
    length (enc1 C (sp_F pp)) + length (G1v_Bytes (sp_H pp)) + length (enc1 C (sp_B pp)).

  (** sum/sa.go:63-68; an Argument (59-61) is the commitment V itself. *)
  Record sumProof : Type := MkSumProof { sm_W : G1 C; sm_c : Zr; sm_ρ : Zr; sm_π : IPProof C }.

  (** sum/sa.go:105-107: the inner proof π is not counted. *)
  Definition sumProof_Size (p : sumProof) : nat :=
    length (Zr_Bytes (sm_c p)) + length (enc1 C (sm_W p)) + length (Zr_Bytes (sm_ρ p)).

  (** sum/sa.go:175-183 *)
  Definition randomOracleCVW (c : Zr) (V W : G1 C) : res Zr :=
    FieldElementFromBytes (sha256 C (Zr_Bytes c ++ enc1 C V ++ enc1 C W)).

  (** sum/sa.go:159-165 and 193-199 *)
  Definition sum_ipaPP (pp : sumPP) : res (bpPP C) :=
    RecomputeDigest (MkBpPP [] (sp_Gs pp) (sp_H pp) (sp_U pp)).

  (** sum/sa.go:118-135; the range of [i] at 126 is 1..n-2. *)
  Definition sum_NewCommitment (pp : sumPP) (v : list Zr) (r : Zr) : res (G1 C) :=
    let! GS := rbind (G1v_MulV (sp_Gs pp) v) G1v_Sum in
    let V := gadd (gmul r (sp_F pp)) GS in
    let! v0 := idx v 0 in
    let n := length v in
    let sum := fold_left zadd (take (n - 2) (drop 1 v)) v0 in
    let! vn := idx v (n - 1) in
    check! zeqb vn sum in Ret V.

  (** sum/sa.go:137-173; the random w and r' are arguments.  P (lines 154-157) is computed but not used. *)
  Definition sum_NewArgument (pp : sumPP) (V : G1 C) (v : list Zr) (r : Zr) (w : list Zr) (rPrime : Zr) : res sumProof :=
    let! GS := rbind (G1v_MulV (sp_Gs pp) w) G1v_Sum in
    let W := gadd (gmul rPrime (sp_F pp)) GS in
    let! c := Vec_InnerProd w (sp_b pp) in
    let! x := randomOracleCVW c V W in
    let ρ := sum_negZr (r + rPrime * x) in
    let! ipaPP := sum_ipaPP pp in
    let! a := Vec_Add v (Vec_Mul w x) in
    let! arg := NewInnerProdArgument ipaPP a (sp_b pp) in
    let! π := IPA_Prove arg in
    Ret (MkSumProof W c ρ π).

  (** sum/sa.go:185-204.  Lines 201-202 overwrite the claim in proof.π; whatever was there is not read. *)
  Definition sum_Verify (proof : sumProof) (pp : sumPP) (V : G1 C) : res error :=
    let! x := randomOracleCVW (sm_c proof) V (sm_W proof) in
    let P := gadd (gadd (gadd (gmul (sm_ρ proof) (sp_F pp)) V) (gmul x (sm_W proof))) (sp_B pp) in
    let! ipaPP := sum_ipaPP pp in
    let π := sm_π proof in
    IPP_Verify (MkIPP (ipp_LRs π) (ipp_a π) (ipp_b π) P (sm_c proof * x)) ipaPP.

  (** sum/sa.go:90-103 *)
  Definition createHVZKChallenge (V : list (G1 C)) (m : nat) : res (list Zr) :=
    let! τ := FieldElementFromBytes (sha256 C (G1v_Bytes V)) in
    Ret (power_series_loop m (IntToZr 1) τ).

  (** sum/sa.go:73-80: entry i of the aggregated vector; panics if some v[j] is shorter than v[0]. *)
  Definition sum_aggr_entry (v : list (list Zr)) (t : list Zr) (i : nat) : res Zr :=
    let! vi := mapM (fun vj => idx vj i) v in
    Vec_InnerProd vi t.
  (** sum/sa.go:70-88 *)
  Definition sum_NewAggregatedArgument (pp : sumPP) (V : list (G1 C)) (v : list (list Zr)) (r : list Zr)
      (w : list Zr) (rPrime : Zr) : res sumProof :=
    let! t := createHVZKChallenge V (length v) in
    let! v0 := idx v 0 in
    let! vAggr := mapM (sum_aggr_entry v t) (seq 0 (length v0)) in
    let! rAggr := Vec_InnerProd r t in
    let! VAggr := rbind (G1v_MulV V t) G1v_Sum in
    sum_NewArgument pp VAggr vAggr rAggr w rPrime.

  (** sum/sa.go:109-116 *)
  Definition sum_VerifyAggregated (proof : sumProof) (pp : sumPP) (V : list (G1 C)) : res error :=
    let! t := createHVZKChallenge V (length V) in
    let! VAggr := rbind (G1v_MulV V t) G1v_Sum in
    sum_Verify proof pp VAggr.
End Sum.
Arguments sumPP : clear implicits.
Arguments sumProof : clear implicits.
