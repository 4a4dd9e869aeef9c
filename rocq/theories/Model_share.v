(** Model of several threads that call LiabilityProof.Verify (/repo/pol/pol.go:124-233) at the same time, possibly on the same
    proof objects.

    Verification assigns to the fields C and P of the inner-product proofs inside the proof it is given (bp/range.go:136-137,
    sum/sa.go:201-202, poe/poe.go:122-123) and reads them back in bp.InnerProductProof.Verify (bp/innerprod.go:135).  By C91
    these are the only assignments to objects that existed before the call; everything else the calls share is read-only.  So
    here the shared memory is the pair of these fields of every inner-product proof object, each assignment and each read of
    one field is one step, and threads take steps in any order.  (The assignments are of pointers, which Go does not tear;
    reordering by compiler or processor is not modelled.) *)
From Verif Require Export Model_conc.
Local Open Scope Zr_scope.

Section Share.
  Context {C : Curve}.

  (** The fields C and P of the inner-product proof objects (bp/innerprod.go:56-62), numbered *)
  Record claims : Type := MkClaims { cl_C : nat -> Zr; cl_P : nat -> G1 C }.
  Definition set_C (o : nat) (c : Zr) (s : claims) : claims := MkClaims (fun o' => if (o' =? o)%nat then c else cl_C s o') (cl_P s).
  Definition set_P (o : nat) (P : G1 C) (s : claims) : claims := MkClaims (cl_C s) (fun o' => if (o' =? o)%nat then P else cl_P s o').

  (** A library call: computation without shared memory, assignments to and reads of the fields *)
  Inductive lib (A : Type) : Type :=
  | LDone (r : res A)
  | LSetC (o : nat) (c : Zr) (k : lib A)
  | LSetP (o : nat) (P : G1 C) (k : lib A)
  | LGetC (o : nat) (k : Zr -> lib A)
  | LGetP (o : nat) (k : G1 C -> lib A).
  Global Arguments LDone {A} r.
  Global Arguments LSetC {A} o c k.
  Global Arguments LSetP {A} o P k.
  Global Arguments LGetC {A} o k.
  Global Arguments LGetP {A} o k.
  Fixpoint lbind {A B} (l : lib A) (k : A -> lib B) : lib B :=
    match l with
    | LDone (Ret a) => k a
    | LDone Panic => LDone Panic
    | LDone Hang => LDone Hang
    | LSetC o c l => LSetC o c (lbind l k)
    | LSetP o P l => LSetP o P (lbind l k)
    | LGetC o f => LGetC o (fun c => lbind (f c) k)
    | LGetP o f => LGetP o (fun P => lbind (f P) k)
    end.

  (** The last three lines of the three verifiers: the claim is assigned (bp/range.go:136-137, sum/sa.go:201-202,
      poe/poe.go:122-123), then bp.InnerProductProof.Verify reads it (bp/innerprod.go:134-137).  π is the proof object o; its
      other fields are not assigned to. *)
  Definition L_claim (o : nat) (c : Zr) (P : G1 C) (π : IPProof C) (pp : bpPP C) : lib error :=
    LSetC o c (LSetP o P (LGetP o (fun P' => LGetC o (fun c' => LDone (IPP_Verify (MkIPP (ipp_LRs π) (ipp_a π) (ipp_b π) P' c') pp))))).

  (** bp/range.go:81-134 and the right-hand side of 137: an error, or the claim, the parameters of the inner argument and
      what lines 141-160 need *)
  Definition range_front (pp : RPPP C) (rp : RangeProof C) (V : G1 C)
    : res (string + (G1 C * bpPP C * (Zr * Zr * Zr * list Zr * list Zr))) :=
    let m := rp_m in
    let n := length (rp_Gs pp) in
    let! x := rangeProofRO1 pp V (rp_W rp) (rp_Q rp) in
    let U := gadd (gadd (gmul (rp_γ rp) (rp_F pp)) V) (gmul x (rp_W rp)) in
    let! rdx := ppRdx pp in
    let! ir := IterativeVerify rdx U (rp_Δ rp) (rp_u rp) in
    match ir with
    | inr err => Ret (inl ("iterated reduction proof invalid: " +:+ err))
    | inl (xs, u) =>
      let xs := Vec_Reverse xs in
      let! f := compute_f n xs in
      let! d := computeD n m f x in
      let! y0 := rp_y pp 0 x (rp_Q rp) (rp_R rp) in
      let! y1 := rp_y pp 1 x (rp_Q rp) (rp_R rp) in
      let y0v := PowerSeries (n * m) y0 in
      let y1v := Vec_Mul (expand (IntToZr 1) (n * m)) y1 in
      let! z := computeZ pp (rp_C1 rp) (rp_C2 rp) (rp_Q rp) (rp_R rp) (Zr_Bytes y0) (Zr_Bytes y1) in
      let! Fprime := rp_Fprime pp y0 in
      let! ipaPP := rp_ipaPP pp Fprime in
      let! P := computeP pp (rp_ρ rp) (rp_Q rp) (rp_R rp) z y1v n m Fprime d y1 in
      Ret (inr (P, ipaPP, (y1, z, u, y0v, d)))
    end.
  (** bp/range.go:138-160, with the verdict of the inner argument *)
  Definition range_back (pp : RPPP C) (rp : RangeProof C) (w : Zr * Zr * Zr * list Zr * list Zr) (e : error) : res error :=
    let m := rp_m in
    let n := length (rp_Gs pp) in
    let '(y1, z, u, y0v, d) := w in
    match e with
    | Err err => Ret (Err ("inner product proof invalid: " +:+ err))
    | nil_error =>
      let! β1 := Vec_InnerProd (expand (IntToZr 1) (n * m)) y0v in
      let! β2 := Vec_InnerProd (expand (IntToZr 1) (n * m)) y0v in
      let! d' := slice_to (n * m) d in
      let! β3 := Vec_InnerProd (expand (IntToZr 1) (n * m)) d' in
      let c0 := β3 * (y1 * y1 * y1) + y1 * y1 * (u + β2) + β1 * y1 in
      let left_ := gadd (gadd (gmul z (rp_C1 rp)) (gmul (z * z) (rp_C2 rp))) (gmul c0 (rp_G pp)) in
      let right_ := gadd (gmul (rp_c rp) (rp_G pp)) (gmul (rp_τ rp) (rp_H pp)) in
      if geqb left_ right_ then Ret nil_error else Ret (Err "invalid range proof")
    end.
  (** bp/range.go:81-160 *)
  Definition L_VerifyRange (pp : RPPP C) (rp : RangeProof C) (o : nat) (V : G1 C) : lib error :=
    lbind (LDone (range_front pp rp V)) (fun r => match r with
    | inl err => LDone (Ret (Err err))
    | inr (P, ipaPP, w) => lbind (L_claim o (rp_c rp) P (rp_Π rp) ipaPP) (fun e => LDone (range_back pp rp w e))
    end).

  (** sum/sa.go:186-199 and the right-hand sides of 201-202 *)
  Definition sum_front (proof : sumProof C) (pp : sumPP C) (V : G1 C) : res (Zr * G1 C * bpPP C) :=
    let! x := randomOracleCVW (sm_c proof) V (sm_W proof) in
    let P := gadd (gadd (gadd (gmul (sm_ρ proof) (sp_F pp)) V) (gmul x (sm_W proof))) (sp_B pp) in
    let! ipaPP := sum_ipaPP pp in
    Ret (sm_c proof * x, P, ipaPP).
  (** sum/sa.go:185-204 *)
  Definition L_sum_Verify (proof : sumProof C) (o : nat) (pp : sumPP C) (V : G1 C) : lib error :=
    lbind (LDone (sum_front proof pp V)) (fun '(c, P, ipaPP) => L_claim o c P (sm_π proof) ipaPP).
  (** sum/sa.go:110-111 *)
  Definition sum_aggr (V : list (G1 C)) : res (G1 C) :=
    let! t := createHVZKChallenge V (length V) in rbind (G1v_MulV V t) G1v_Sum.
  (** sum/sa.go:109-116 *)
  Definition L_sum_VerifyAggregated (proof : sumProof C) (o : nat) (pp : sumPP C) (V : list (G1 C)) : lib error :=
    lbind (LDone (sum_aggr V)) (fun VAggr => L_sum_Verify proof o pp VAggr).

  (** poe/poe.go:72-120: an error, or the claimed point and the parameters of the inner argument *)
  Definition eq_front (e : Equalities C) (proof : AggProof C) : res (string + (G1 C * bpPP C)) :=
    let pp := pe_PP (es_PP e) in
    let groupElements := ap_Vaggr proof ++ ap_Waggr proof ++ es_V e ++ es_W e in
    let! xl := es_RO e groupElements [] (pe_Digest (es_PP e)) 1%nat in
    let! x := idx xl 0 in
    let m := length (es_V e) in
    let groupElements := groupElements ++ [ap_U proof; ap_V proof] in
    let! ts := es_RO e groupElements [] (pe_Digest (es_PP e)) (2 * m)%nat in
    let! g2sV := poe_g2s pp (es_I e) m in
    let! g2sW := poe_g2s pp (es_J e) m in
    let! te := Vec_Evens ts in let! to := Vec_Odds ts in
    let! A := G1v_Add (es_V e) (G1v_Mul (ap_Vaggr proof) x) in
    let! A := G1v_MulV A te in
    let! numV := G1v_InnerProd A g2sV in
    let! B := G1v_Add (es_W e) (G1v_Mul (ap_Waggr proof) x) in
    let! B := G1v_MulV B to in
    let! numW := G1v_InnerProd B g2sW in
    let numerator := gadd numV numW in
    let! denominator := G1v_InnerProd [ap_Ω proof] [gen2 C] in
    let! g10 := idx (pp_G1s pp) 0 in
    let! g2l := idx_last (pp_G2s pp) 0 in
    let! d2 := G1v_InnerProd [gmul (ap_c proof) g10] [g2l] in
    let denominator := gadd denominator d2 in
    if geqb numerator denominator then
      let! b := Vec_Add te to in
      let! HB := rbind (G1v_MulV (pe_H (es_PP e)) b) G1v_Sum in
      let P := gadd (gadd (gadd (gmul (ap_ρ proof) (pe_F (es_PP e))) (gmul x (ap_U proof))) (ap_V proof)) HB in
      let! bp := poe_bpPP (es_PP e) in
      Ret (inr (P, bp))
    else Ret (inl "PoE invalid: aggregation condition not satisfied").
  (** poe/poe.go:71-127 *)
  Definition L_Equalities_Verify (e : Equalities C) (proof : AggProof C) (o : nat) : lib error :=
    lbind (LDone (eq_front e proof)) (fun r => match r with
    | inl err => LDone (Ret (Err err))
    | inr (P, bp) => L_claim o (ap_c proof) P (ap_IPP proof) bp
    end).

  (** The numbers of the inner-product proof objects inside a liability proof: those of the range proofs, of the sum argument
      and of the equality argument (pol/pol.go:101-111) *)
  Record objects : Type := MkObjs { ob_ranges : list nat; ob_sum : nat; ob_eq : nat }.

  (** pol/pol.go:195-221 *)
  Definition L_verify_arguments (pp : PolPP C) (lp : LiabilityProof C) (ob : objects) (path : path) : lib error :=
    lbind (LDone (VerifyAggregation (po_PPPP pp) (take (length path - 1) path) (lp_W lp) (lp_π lp) (lp_Σ lp) RO)) (fun e =>
    match e with Err err => LDone (Ret (Err ("hash chain aggregation proof invalid: " +:+ err))) | nil_error =>
    lbind (L_sum_VerifyAggregated (lp_sum lp) (ob_sum ob) (po_SAPP pp) (lp_V lp)) (fun e =>
    match e with Err err => LDone (Ret (Err ("failed verifying sum argument: " +:+ err))) | nil_error =>
    lbind (LDone (verify_equalities pp lp path)) (fun equalities =>
    lbind (L_Equalities_Verify equalities (lp_Eq lp) (ob_eq ob)) (fun e =>
    match e with Err _ => LDone (Ret (Err "failed verifying equality proof")) | nil_error => LDone (Ret nil_error) end)) end) end).

  (** ** Threads *)
  (** As goroutine and main in Model_conc.v, with library calls of more than one step *)
  Inductive fgor : Type :=
  | FCall {A} (c : lib A) (k : A -> fgor)
  | FAct (a : VMem -> attempt VMem) (k : fgor)
  | FEnd.
  Inductive fmain : Type :=
  | FMCall {A} (c : lib A) (k : A -> fmain)
  | FMGo (g : fgor) (k : fmain)
  | FMAct (a : VMem -> attempt VMem) (k : fmain)
  | FMRead {A} (f : VMem -> A) (k : A -> fmain)
  | FMReturn (r : error).

  (** One step of a library call: it ends (inl), or goes on (inr) *)
  Definition lib_step {A} (c : lib A) (s : claims) : res A + (lib A * claims) :=
    match c with
    | LDone r => inl r
    | LSetC o v k => inr (k, set_C o v s)
    | LSetP o v k => inr (k, set_P o v s)
    | LGetC o k => inr (k (cl_C s o), s)
    | LGetP o k => inr (k (cl_P s o), s)
    end.
  Definition fgor_step (g : fgor) (m : VMem) (s : claims) : attempt (fgor * VMem * claims) :=
    match g with
    | FCall c k => match lib_step c s with
                   | inl (Ret a) => Next (k a, m, s) | inl Panic => Crash | inl Hang => Blocked
                   | inr (c', s') => Next (FCall c' k, m, s') end
    | FAct a k => match a m with Next m' => Next (k, m', s) | Crash => Crash | Blocked => Blocked end
    | FEnd => Blocked
    end.
  Definition fmain_step (t : fmain) (gs : list fgor) (m : VMem) (s : claims) : attempt (fmain * list fgor * VMem * claims) :=
    match t with
    | FMCall c k => match lib_step c s with
                    | inl (Ret a) => Next (k a, gs, m, s) | inl Panic => Crash | inl Hang => Blocked
                    | inr (c', s') => Next (FMCall c' k, gs, m, s') end
    | FMGo g k => Next (k, gs ++ [g], m, s)
    | FMAct a k => match a m with Next m' => Next (k, gs, m', s) | Crash => Crash | Blocked => Blocked end
    | FMRead f k => Next (k (f m), gs, m, s)
    | FMReturn _ => Blocked
    end.

  (** One call: the thread that makes it, the goroutines it has started, and the WaitGroup and the error of this call
      (pol/pol.go:139-142 are local to it) *)
  Record call : Type := MkCall { ca_main : fmain; ca_gors : list fgor; ca_mem : VMem }.
  (** All calls and the shared memory; a panic in any thread ends the process. *)
  Inductive system : Type :=
  | Sys (cs : list call) (s : claims)
  | SysCrashed.
  (** One step of one thread of one call *)
  Inductive call_step : call -> claims -> call -> claims -> Prop :=
  | call_main t gs m s t' gs' m' s' : fmain_step t gs m s = Next (t', gs', m', s') -> call_step (MkCall t gs m) s (MkCall t' gs' m') s'
  | call_gor t gs m s i g g' m' s' : gs !! i = Some g -> fgor_step g m s = Next (g', m', s') ->
      call_step (MkCall t gs m) s (MkCall t (<[i := g']> gs) m') s'.
  Definition call_crash (c : call) (s : claims) : Prop :=
    fmain_step (ca_main c) (ca_gors c) (ca_mem c) s = Crash \/ exists i g, ca_gors c !! i = Some g /\ fgor_step g (ca_mem c) s = Crash.
  Inductive sys_step : system -> system -> Prop :=
  | sys_call cs s j c c' s' : cs !! j = Some c -> call_step c s c' s' -> sys_step (Sys cs s) (Sys (<[j := c']> cs) s')
  | sys_crash cs s j c : cs !! j = Some c -> call_crash c s -> sys_step (Sys cs s) SysCrashed.
  (** Call j has returned e.  Its goroutines may still be running. *)
  Definition call_returned (c : call) (e : error) : Prop := ca_main c = FMReturn e.

  (** ** LiabilityProof.Verify *)
  (** pol/pol.go:162-167 *)
  Definition f_verifyRangeProof (pp : PolPP C) (rp : RangeProof C) (o : nat) (V : G1 C) : fgor :=
    FCall (L_VerifyRange (po_RPPP pp) rp o V) (fun e => match e with
      | Err _ => FAct (v_store e) (FAct v_done FEnd)
      | nil_error => FAct v_done FEnd end).
  (** pol/pol.go:195-232 *)
  Definition f_tail (pp : PolPP C) (lp : LiabilityProof C) (ob : objects) (path : path) : fmain :=
    FMCall (L_verify_arguments pp lp ob path) (fun e => match e with Err _ => FMReturn e | nil_error =>
    FMAct v_wait (FMRead vm_err (fun stored => match stored with Err _ => FMReturn stored | nil_error =>
    FMCall (LDone (verify_liability pp lp path)) FMReturn end)) end).
  (** pol/pol.go:153-193, then the rest *)
  Fixpoint f_loop (pp : PolPP C) (lp : LiabilityProof C) (ob : objects) (path : path) (is : list nat) : fmain :=
    match is with
    | [] => f_tail pp lp ob path
    | i :: is => FMCall (LDone (verify_args lp path i)) (fun '(rp, V) => FMGo (f_verifyRangeProof pp rp (default 0%nat (ob_ranges ob !! i)) V)
                 (FMCall (LDone (verify_digest lp path i)) (fun e => match e with Err _ => FMReturn e | nil_error => f_loop pp lp ob path is end)))
    end.
  (** pol/pol.go:124-233 *)
  Definition f_Verify (lp : LiabilityProof C) (ob : objects) (pp : PolPP C) (id : string) (V W : G1 C) (id2path : string -> res path) : fmain :=
    FMCall (LDone (id2path id)) (fun path => FMCall (LDone (verify_header lp path V W)) (fun e => match e with Err _ => FMReturn e | nil_error =>
    FMAct (v_add (Z.of_nat (length path))) (f_loop pp lp ob path (seq 0 (length path))) end)).

  (** What one caller asks for: the proof and the objects in it, the id, the published root and the path function *)
  Record job : Type := MkJob { jb_lp : LiabilityProof C; jb_ob : objects; jb_id : string; jb_V : G1 C; jb_W : G1 C; jb_path : string -> res path }.
  (** A call that has just been made *)
  Definition start (t : fmain) : call := MkCall t [] (MkVM 0 nil_error).
  Definition job_start (pp : PolPP C) (j : job) : call := start (f_Verify (jb_lp j) (jb_ob j) pp (jb_id j) (jb_V j) (jb_W j) (jb_path j)).
End Share.
Arguments claims : clear implicits.
Arguments lib : clear implicits.
Arguments fgor : clear implicits.
Arguments fmain : clear implicits.
Arguments call : clear implicits.
Arguments system : clear implicits.
Arguments job : clear implicits.
