(** The same functions as in Model_common, Model_ipa, Model_ir, Model_range, Model_pp, Model_sum and Model_poe, this time with
    the points of G1 as what they are in Go: pointers to objects in memory.  [P.Add(Q)] and [P.Sub(Q)] overwrite the object P
    points to, [P.Mul(x)] and [P.Copy()] make a new object, [Q := P] makes a second pointer to the same object, and a slice of
    points is a list of pointers.  The statements are in the order of the Go code.

    A second kind of object is bp.InnerProductProof, which the verifiers overwrite in part (bp/range.go:136-137,
    sum/sa.go:201-202, poe/poe.go:122-123).

    Simplifications.  Scalars, elements of G2 and Gt, and digests are values: the only in-place operations on scalars are
    Mod and InvModP on copies (common/math.go:186,199,264, bp/innerprod.go:222,229, bp/ir.go:93, poe/poe.go:267), the first of
    which does not change the residue class; those on G2 are on copies (common/math.go:396-397,419-421) and those on Gt on
    results of Pairing, FExp and Exp, which are new (common/math.go:441, pp/pointproofs.go:119,161, poe/poe.go:99,102,328,332).
    The structures that hold parameters are records of pointers; RecomputeDigest (bp/innerprod.go:46-48) sets a field of a
    structure that the calling function has just made.  Pointers into slices are not modelled: no function modelled here
    assigns to an element of a slice that it did not make itself. *)
From Verif Require Export Model_pol.
Local Open Scope Zr_scope.

Section Mem.
  Context {C : Curve}.

  (** A pointer to a G1 object; a pointer to an InnerProductProof object *)
  Definition loc : Type := nat.
  Definition iloc : Type := nat.
  (** bp/innerprod.go:57-62 *)
  Record ippObj : Type := MkObj { io_LRs : list loc; io_a : Zr; io_b : Zr; io_P : loc; io_C : Zr }.
  (** What has been overwritten *)
  Inductive write : Type := WPoint (l : loc) | WProof (i : iloc).
  (** The memory: all objects made so far, and the log of all assignments to objects that existed (the last one first).  New
      objects are put at the end. *)
  Record mem : Type := MkMem { mpts : list (G1 C); mipps : list ippObj; mwrites : list write }.

  (** A computation on the memory *)
  Definition M (A : Type) : Type := mem -> res (A * mem).
  Definition mret {A} (a : A) : M A := fun h => Ret (a, h).
  Definition mbind {A B} (m : M A) (k : A -> M B) : M B :=
    fun h => match m h with Ret (a, h') => k a h' | Panic => Panic | Hang => Hang end.
  Definition mlift {A} (r : res A) : M A := fun h => match r with Ret a => Ret (a, h) | Panic => Panic | Hang => Hang end.
  Definition mpanic {A} : M A := fun _ => Panic.
  Definition mhang {A} : M A := fun _ => Hang.
End Mem.
Arguments mem : clear implicits.
Arguments M : clear implicits.
Notation "'let*' x := e 'in' k" := (mbind e (fun x => k))
  (at level 200, x pattern, e at level 200, k at level 200, right associativity).
Notation "'let*' ' p := e 'in' k" := (mbind e (fun x => match x with p => k end))
  (at level 200, p strict pattern, e at level 200, k at level 200).
Notation "'check*' b 'in' k" := (if b then k else mpanic)
  (at level 200, b at level 200, k at level 200, right associativity).

Section Mem.
  Context {C : Curve}.
  Local Notation M := (M C).

  (** ** Operations of mathlib *)
  (** A new object *)
  Definition alloc (v : G1 C) : M loc := fun h => Ret (length (mpts h), MkMem (mpts h ++ [v]) (mipps h) (mwrites h)).
  (** The value of an object; panics on a pointer that points nowhere. *)
  Definition deref (l : loc) : M (G1 C) := fun h => match mpts h !! l with Some v => Ret (v, h) | None => Panic end.
  (** Overwriting an object *)
  Definition store (l : loc) (v : G1 C) : M unit := fun h => match mpts h !! l with
    | Some _ => Ret (tt, MkMem (<[l := v]> (mpts h)) (mipps h) (WPoint l :: mwrites h)) | None => Panic end.
  (** (g *G1) Mul, Copy: new objects *)
  Definition p_Mul (l : loc) (x : Zr) : M loc := let* v := deref l in alloc (gmul x v).
  Definition p_Copy (l : loc) : M loc := let* v := deref l in alloc v.
  (** (g *G1) Add, Sub: g is overwritten *)
  Definition p_Add (l l' : loc) : M unit := let* v := deref l in let* v' := deref l' in store l (gadd v v').
  Definition p_Sub (l l' : loc) : M unit := let* v := deref l in let* v' := deref l' in store l (gadd v (gopp v')).
  (** (g *G1) Equals, IsInfinity, Bytes *)
  Definition p_Equals (l l' : loc) : M bool := let* v := deref l in let* v' := deref l' in mret (geqb v v').
  Definition p_IsInfinity (l : loc) : M bool := let* v := deref l in mret (geqb v gzero).
  Definition p_Bytes (l : loc) : M bytes := let* v := deref l in mret (enc1 C v).
  (** The values of the objects of a slice, in the functions that only read them *)
  Fixpoint derefs (ls : list loc) : M (list (G1 C)) :=
    match ls with [] => mret [] | l :: ls => let* v := deref l in let* vs := derefs ls in mret (v :: vs) end.
  (** &InnerProductProof{...}, reading it, and assigning to its fields P and C *)
  Definition ipp_new (o : ippObj) : M iloc := fun h => Ret (length (mipps h), MkMem (mpts h) (mipps h ++ [o]) (mwrites h)).
  Definition ipp_get (i : iloc) : M ippObj := fun h => match mipps h !! i with Some o => Ret (o, h) | None => Panic end.
  Definition ipp_set (i : iloc) (P : loc) (c : Zr) : M unit := fun h => match mipps h !! i with
    | Some o => Ret (tt, MkMem (mpts h) (<[i := MkObj (io_LRs o) (io_a o) (io_b o) P c]> (mipps h)) (WProof i :: mwrites h))
    | None => Panic end.

  (** ** common/math.go *)
  (** common/math.go:20,23-26: the shared neutral element is the first object *)
  Definition zeroG1 : loc := 0%nat.
  (** c.GenG1 *)
  Definition GenG1 : loc := 1%nat.
  (** The memory after the packages are initialised (common/math.go:23-26) *)
  Definition mem_init : mem C := MkMem [gzero; gen1 C] [] [].

  (** common/math.go:89-99 *)
  Fixpoint m_allocs (vs : list (G1 C)) : M (list loc) :=
    match vs with [] => mret [] | v :: vs => let* l := alloc v in let* ls := m_allocs vs in mret (l :: ls) end.
  Definition m_RandGenVec (n : nat) (context : string) : M (list loc) := m_allocs (RandGenVec n context).
  (** common/math.go:244-253 *)
  Fixpoint m_exp_loop (result : loc) (v : list Zr) (g : list loc) : M unit :=
    match v, g with
    | x :: v, l :: g => let* t := p_Mul l x in let* _ := p_Add result t in m_exp_loop result v g
    | _, _ => mret tt
    end.
  Definition m_Exp (v : list Zr) (g : list loc) : M loc :=
    check* (length v =? length g)%nat in
    match v, g with
    | x :: v, l :: g => let* result := p_Mul l x in let* _ := m_exp_loop result v g in mret result
    | _, _ => mpanic
    end.
  (** common/math.go:281-288 *)
  Fixpoint m_G1v_Add (a b : list loc) : M (list loc) :=
    match a, b with
    | [], _ => mret []
    | x :: a, y :: b =>
      let* r := p_Copy x in let* _ := p_Add r y in let* rs := m_G1v_Add a b in mret (r :: rs)
    | _ :: _, [] => mpanic
    end.
  (** common/math.go:308-315 (same code as Add) *)
  Definition m_HadamardProd (a b : list loc) : M (list loc) := m_G1v_Add a b.
  (** common/math.go:295-306 *)
  Fixpoint m_neg_loop (zero : loc) (a : list loc) : M (list loc) :=
    match a with
    | [] => mret []
    | x :: a => let* r := p_Copy zero in let* _ := p_Sub r x in let* rs := m_neg_loop zero a in mret (r :: rs)
    end.
  Definition m_Neg (a : list loc) : M (list loc) :=
    let* zero := p_Copy GenG1 in let* _ := p_Sub zero zero in m_neg_loop zero a.
  (** common/math.go:317-323 *)
  Fixpoint m_Mul (a : list loc) (x : Zr) : M (list loc) :=
    match a with [] => mret [] | l :: a => let* r := p_Mul l x in let* rs := m_Mul a x in mret (r :: rs) end.
  (** common/math.go:325-340: for the scalar 0 the result is the pointer to the shared neutral element (line 333). *)
  Fixpoint m_mulv_loop (a : list loc) (v : list Zr) : M (list loc) :=
    match a, v with
    | l :: a, x :: v =>
      let* r := if zeqb x (zr 0) then mret zeroG1 else p_Mul l x in
      let* rs := m_mulv_loop a v in mret (r :: rs)
    | _, _ => mret []
    end.
  Definition m_MulV (a : list loc) (v : list Zr) : M (list loc) :=
    check* (length a =? length v)%nat in m_mulv_loop a v.
  (** common/math.go:342-351 *)
  Fixpoint m_sum_loop (sum : loc) (a : list loc) : M unit :=
    match a with
    | [] => mret tt
    | l :: a => let* inf := p_IsInfinity l in let* _ := if inf then mret tt else p_Add sum l in m_sum_loop sum a
    end.
  Definition m_Sum (a : list loc) : M loc :=
    match a with
    | [] => mpanic
    | l :: a => let* sum := p_Copy l in let* _ := m_sum_loop sum a in mret sum
    end.
  (** common/math.go:361-371 *)
  Fixpoint m_dup_loop (l : loc) (n : nat) : M (list loc) :=
    match n with O => mret [] | S n => let* r := p_Copy l in let* rs := m_dup_loop l n in mret (r :: rs) end.
  Definition m_Duplicate (a : list loc) (n : nat) : M (list loc) := match a with [l] => m_dup_loop l n | _ => mpanic end.
  (** common/math.go:426-454 *)
  Definition m_InnerProd (a : list loc) (b : list (G2 C)) : M (GT C) :=
    let* vs := derefs a in mlift (G1v_InnerProd vs b).

  (** ** bp/innerprod.go *)
  (** bp/innerprod.go:11-16 *)
  Record mbpPP : Type := MkMbp { mb_Digest : bytes; mb_G : list loc; mb_H : list loc; mb_U : loc }.
  (** bp/innerprod.go:34-48 *)
  Definition m_RecomputeDigest (pp : mbpPP) : M mbpPP :=
    let* U := deref (mb_U pp) in let* G := derefs (mb_G pp) in let* H := derefs (mb_H pp) in
    let* pre := mlift (setup_preimage G H U) in
    mret (MkMbp (sha256 C pre) (mb_G pp) (mb_H pp) (mb_U pp)).
  (** bp/innerprod.go:80-100, with u = nil as in the only call *)
  Fixpoint m_commit_loop (gAcc hAcc : loc) (G H : list loc) (a b : list Zr) {struct a} : M unit :=
    match a, b, G, H with
    | x :: a, y :: b, P :: G, Q :: H =>
      let* t := p_Mul P x in let* _ := p_Add gAcc t in
      let* t := p_Mul Q y in let* _ := p_Add hAcc t in m_commit_loop gAcc hAcc G H a b
    | [], _, _, _ => mret tt
    | _, _, _, _ => mpanic
    end.
  Definition m_commit (pp : mbpPP) (a b : list Zr) : M loc :=
    check* (length a =? length b)%nat in
    match a, b, mb_G pp, mb_H pp with
    | a0 :: a, b0 :: b, G0 :: G, H0 :: H =>
      let* gAcc := p_Mul G0 a0 in
      let* hAcc := p_Mul H0 b0 in
      let* _ := m_commit_loop gAcc hAcc G H a b in
      let* _ := p_Add gAcc hAcc in
      mret gAcc
    | _, _, _, _ => mpanic
    end.
  (** bp/innerprod.go:50-55 *)
  Record mIPA : Type := MkMipa { ma_pp : mbpPP; ma_a : list Zr; ma_b : list Zr; ma_C : Zr; ma_P : loc }.
  (** bp/innerprod.go:68-78 *)
  Definition m_NewInnerProdArgument (pp : mbpPP) (a b : list Zr) : M mIPA :=
    let* c := mlift (Vec_InnerProd a b) in
    let* P := m_commit pp a b in
    mret (MkMipa pp a b c P).
  (** bp/innerprod.go:102-117 *)
  Definition m_computeInstanceSpecificParams (pp : mbpPP) (P : loc) (c : Zr) : M (mbpPP * loc) :=
    let* _ := p_Bytes P in
    let* x := mlift (FieldElementFromBytes (SHA256Digest (C:=C) (mb_Digest pp))) in
    let* P := p_Copy P in
    let* t := p_Mul (mb_U pp) (x * c) in
    let* _ := p_Add P t in
    let* U := p_Mul (mb_U pp) x in
    let* newPP := m_RecomputeDigest (MkMbp (mb_Digest pp) (mb_G pp) (mb_H pp) U) in
    mret (newPP, P).
  (** bp/innerprod.go:246-253 *)
  Definition m_randomOracle (L R : loc) (x : bytes) : M bytes :=
    let* l := p_Bytes L in let* r := p_Bytes R in mret (sha256 C (l ++ r ++ x)).
  (** bp/innerprod.go:210-244 *)
  Record mNext : Type := MkMnext { mn_x : Zr; mn_xInv : Zr; mn_g : list loc; mn_h : list loc; mn_P : loc }.
  Definition m_computeNextParams (L R : loc) (pp : mbpPP) (g h : list loc) (P : loc) : M mNext :=
    let n := (length g / 2)%nat in
    let* digest := m_randomOracle L R (mb_Digest pp) in
    let* x := mlift (FieldElementFromBytes digest) in
    let xInverse := zinv x in
    let* gL := mlift (slice_to n g) in let* gR := mlift (slice_from n g) in
    let* g1 := m_Mul gL xInverse in let* g2 := m_Mul gR x in
    let* nextG := m_HadamardProd g1 g2 in
    let* hL := mlift (slice_to n h) in let* hR := mlift (slice_from n h) in
    let* h1 := m_Mul hL x in let* h2 := m_Mul hR xInverse in
    let* nextH := m_HadamardProd h1 h2 in
    let xSquare := x * x in
    let xSquareInv := zinv xSquare in
    let* L2 := p_Mul L xSquare in
    let* R2 := p_Mul R xSquareInv in
    let* nextP := p_Copy L2 in
    let* _ := p_Add nextP P in
    let* _ := p_Add nextP R2 in
    mret (MkMnext x xInverse nextG nextH nextP).
  (** bp/innerprod.go:167-208 *)
  Fixpoint m_prove (fuel : nat) (pp : mbpPP) (a b : list Zr) (P : loc) (g h : list loc) : M (list loc * (Zr * Zr)) :=
    match fuel with O => mhang | S fuel =>
    check* (length g =? length h)%nat in
    if (length g =? 1)%nat then
      let* a0 := mlift (idx a 0) in let* b0 := mlift (idx b 0) in mret ([], (a0, b0))
    else
      let n := (length g / 2)%nat in
      let* aL := mlift (slice_to n a) in let* aR := mlift (slice_from n a) in
      let* bL := mlift (slice_to n b) in let* bR := mlift (slice_from n b) in
      let* gL := mlift (slice_to n g) in let* gR := mlift (slice_from n g) in
      let* hL := mlift (slice_to n h) in let* hR := mlift (slice_from n h) in
      let* cL := mlift (Vec_InnerProd aL bR) in
      let* cR := mlift (Vec_InnerProd aR bL) in
      let* Lg := m_Exp aL gR in
      let* Lh := m_Exp bR hL in
      let L := Lg in
      let* _ := p_Add L Lh in
      let* t := p_Mul (mb_U pp) cL in
      let* _ := p_Add L t in
      let* Rg := m_Exp aR gL in
      let* Rh := m_Exp bL hR in
      let R := Rg in
      let* _ := p_Add R Rh in
      let* t := p_Mul (mb_U pp) cR in
      let* _ := p_Add R t in
      let* np := m_computeNextParams L R pp g h P in
      let x := mn_x np in let xInverse := mn_xInv np in
      let* a' := mlift (Vec_Add (Vec_Mul aL x) (Vec_Mul aR xInverse)) in
      let* b' := mlift (Vec_Add (Vec_Mul bL xInverse) (Vec_Mul bR x)) in
      let* '(LRs, ab) := m_prove fuel pp a' b' (mn_P np) (mn_g np) (mn_h np) in
      mret (L :: R :: LRs, ab)
    end.
  (** bp/innerprod.go:119-132: the proof points to the commitment P of the argument. *)
  Definition m_IPA_Prove (ipa : mIPA) : M iloc :=
    let* '(pp, P) := m_computeInstanceSpecificParams (ma_pp ipa) (ma_P ipa) (ma_C ipa) in
    let G := mb_G (ma_pp ipa) in let H := mb_H (ma_pp ipa) in
    let* '(LRs, ab) := m_prove (S (length G)) pp (ma_a ipa) (ma_b ipa) P G H in
    ipp_new (MkObj LRs (fst ab) (snd ab) (ma_P ipa) (ma_C ipa)).
  (** bp/innerprod.go:140-163 *)
  Fixpoint m_verify (pp : mbpPP) (P : loc) (g h : list loc) (LRs : list loc) (a b : Zr) : M error :=
    if (length g =? 1)%nat then
      let* expectedP := p_Mul (mb_U pp) (a * b) in
      let* g0 := mlift (idx g 0) in
      let* t := p_Mul g0 a in
      let* _ := p_Add expectedP t in
      let* h0 := mlift (idx h 0) in
      let* t := p_Mul h0 b in
      let* _ := p_Add expectedP t in
      let* eq := p_Equals expectedP P in
      if eq then mret nil_error else mret (Err "P != g^a*h^b*u^c")
    else
      match LRs with
      | L :: R :: LRs =>
        let* np := m_computeNextParams L R pp g h P in
        m_verify pp (mn_P np) (mn_g np) (mn_h np) LRs a b
      | _ => mpanic
      end.
  (** bp/innerprod.go:134-137 *)
  Definition m_IPP_Verify (i : iloc) (pp : mbpPP) : M error :=
    let* o := ipp_get i in
    let* '(pp', P) := m_computeInstanceSpecificParams pp (io_P o) (io_C o) in
    m_verify pp' P (mb_G pp') (mb_H pp') (io_LRs o) (io_a o) (io_b o).

  (** ** bp/ir.go *)
  (** bp/ir.go:97-103 *)
  Definition m_appendVToChallenge (x : bytes) (V : loc) : M bytes := let* v := p_Bytes V in mret (sha256 C (x ++ v)).
  (** bp/ir.go:25-51 *)
  Fixpoint m_iv_loop (pp : mbpPP) (Δ : list (loc * loc * loc)) (n : nat) (G : list loc) (prevV : loc)
      (xs : list Zr) (finalV : option loc) (vFinal : Zr) {struct Δ} : M (list Zr * Zr + string) :=
    match n with
    | O =>
      let* G0 := mlift (idx G 0) in
      let* t := p_Mul G0 vFinal in
      match finalV with
      | None => mpanic
      | Some fV =>
        let* eq := p_Equals t fV in
        if eq then mret (inl (xs, vFinal)) else mret (inr "final equation check failed"%string)
      end
    | S _ =>
      match Δ with
      | [] => mpanic
      | (A, B, V) :: Δ =>
        let* ro := m_randomOracle A B (mb_Digest pp) in
        let* ch := m_appendVToChallenge ro prevV in
        let* x := mlift (FieldElementFromBytes ch) in
        let* Ax := p_Mul A x in
        let* Bx := p_Mul B (invertZr x) in
        let shouldBeV := Ax in
        let* _ := p_Add shouldBeV Bx in
        let* _ := p_Add shouldBeV prevV in
        let* eq := p_Equals V shouldBeV in
        if eq then
          let* GL := mlift (slice_to n G) in let* GR := mlift (slice_from n G) in
          let* t := m_Mul GR (invertZr x) in
          let* G' := m_G1v_Add GL t in
          m_iv_loop pp Δ (n / 2) G' V (xs ++ [x]) (Some V) vFinal
        else mret (inr "V != A^xB^{x^{-1}}V"%string)
      end
    end.
  (** bp/ir.go:11-55 *)
  Definition m_IterativeVerify (pp : mbpPP) (prevV : loc) (Δ : list (loc * loc * loc)) (vFinal : Zr)
    : M (list Zr * Zr + string) :=
    let n := length (mb_G pp) in
    let* p2 := mlift (IsPowerOfTwo (uint16 n)) in
    check* p2 in
    m_iv_loop pp Δ (n / 2) (mb_G pp) prevV [] None vFinal.
  (** bp/ir.go:69-81 *)
  Fixpoint m_ir_loop (fuel : nat) (pp : mbpPP) (n : nat) (G : list loc) (v : list Zr) (V : loc)
      (Δ : list (loc * loc * loc)) (xs : list Zr) : M (list (loc * loc * loc) * list Zr * list Zr) :=
    match n, fuel with
    | O, _ => mret (Δ, xs, v)
    | _, O => mhang
    | _, S fuel =>
      let* GL := mlift (slice_to n G) in let* GR := mlift (slice_from n G) in
      let* vL := mlift (slice_to n v) in let* vR := mlift (slice_from n v) in
      let* t := m_MulV GL vR in let* A := m_Sum t in
      let* t := m_MulV GR vL in let* B := m_Sum t in
      let* ro := m_randomOracle A B (mb_Digest pp) in
      let* ch := m_appendVToChallenge ro V in
      let* x := mlift (FieldElementFromBytes ch) in
      let* t := m_Mul GR (invertZr x) in
      let* G' := m_G1v_Add GL t in
      let* v' := mlift (Vec_Add vL (Vec_Mul vR x)) in
      let* t := m_MulV G' v' in let* V' := m_Sum t in
      m_ir_loop fuel pp (n / 2) G' v' V' (Δ ++ [(A, B, V')]) (xs ++ [x])
    end.
  (** bp/ir.go:57-89 *)
  Definition m_IterativeReduce (pp : mbpPP) (v : list Zr) (V : loc) : M (list (loc * loc * loc) * list Zr * Zr) :=
    let n := length (mb_G pp) in
    let* p2 := mlift (IsPowerOfTwo (uint16 n)) in
    check* p2 in
    let* '(Δ, xs, v) := m_ir_loop n pp (n / 2) (mb_G pp) v V [] [] in
    check* (length v =? 1)%nat in
    let* v0 := mlift (idx v 0) in
    mret (Δ, xs, v0).

  (** ** bp/range.go *)
  (** bp/range.go:12-16; the digest has been computed when the parameters were made (line 29). *)
  Record mRPPP : Type := MkMRPPP {
    mr_G : loc; mr_H : loc; mr_F : loc; mr_Gs : list loc; mr_Hs : list loc; mr_Fs : list loc; mr_digest : bytes }.
  (** bp/range.go:55-64 *)
  Record mRangeProof : Type := MkMRP {
    mq_Δ : list (loc * loc * loc); mq_u : Zr; mq_W : loc; mq_γ : Zr; mq_Π : iloc; mq_c : Zr;
    mq_Q : loc; mq_R : loc; mq_C1 : loc; mq_C2 : loc; mq_τ : Zr; mq_ρ : Zr }.
  (** bp/range.go:335-343 *)
  Definition m_rangeProofRO1 (pp : mRPPP) (V W Q : loc) : M Zr :=
    let* v := p_Bytes V in let* w := p_Bytes W in let* q := p_Bytes Q in
    mlift (FieldElementFromBytes (sha256 C (mr_digest pp ++ v ++ w ++ q))).
  (** bp/range.go:291-300 *)
  Definition m_computeZ (pp : mRPPP) (C1 C2 Q R : loc) (y0 y1 : bytes) : M Zr :=
    let* c1 := p_Bytes C1 in let* c2 := p_Bytes C2 in
    let* ro := m_randomOracle Q R (mr_digest pp ++ c1 ++ c2 ++ y0 ++ y1) in
    mlift (FieldElementFromBytes ro).
  (** bp/range.go:113-120 and 216-223 *)
  Definition m_rp_y (pp : mRPPP) (b : Z) (x : Zr) (Q R : loc) : M Zr :=
    let* ro := m_randomOracle Q R ([b] ++ mr_digest pp ++ Zr_Bytes x) in mlift (FieldElementFromBytes ro).
  (** bp/range.go:280-289 *)
  Definition m_computeP (pp : mRPPP) (ρ : Zr) (Q R : loc) (z : Zr) (y1v : list Zr) (n m : nat)
      (Fprime : list loc) (d : list Zr) (y1 : Zr) : M loc :=
    let* P := p_Mul (mr_F pp) ρ in
    let* _ := p_Add P Q in
    let* t := p_Mul R z in let* _ := p_Add P t in
    let* Hs' := mlift (slice_to (n * m) (mr_Hs pp)) in
    let* t := m_MulV Hs' y1v in let* s := m_Sum t in let* _ := p_Add P s in
    let* t := m_MulV Fprime (Vec_Mul d (y1 * y1)) in let* s := m_Sum t in let* _ := p_Add P s in
    let* Fs' := mlift (slice_to (n * m) (mr_Fs pp)) in
    let* t := m_MulV Fs' y1v in let* s := m_Sum t in let* _ := p_Add P s in
    mret P.
  (** bp/range.go:93-97 and 192-196 *)
  Definition m_ppRdx (pp : mRPPP) : M mbpPP :=
    let* us := m_RandGenVec 1 "U range proof" in let* U := mlift (idx us 0) in
    m_RecomputeDigest (MkMbp [] (mr_Gs pp) [] U).
  (** bp/range.go:124-134 and 242-254 *)
  Definition m_rp_Fprime (pp : mRPPP) (y0 : Zr) : M (list loc) :=
    m_MulV (mr_Fs pp) (PowerSeries (length (mr_Fs pp)) (invertZr y0)).
  Definition m_rp_ipaPP (pp : mRPPP) (Fprime : list loc) : M mbpPP :=
    let* us := m_RandGenVec 1 "u" in let* U := mlift (idx us 0) in
    m_RecomputeDigest (MkMbp [] (mr_Hs pp) Fprime U).
  (** bp/range.go:81-160 *)
  Definition m_VerifyRange (pp : mRPPP) (rp : mRangeProof) (V : loc) : M error :=
    let m := rp_m in
    let n := length (mr_Gs pp) in
    let* x := m_rangeProofRO1 pp V (mq_W rp) (mq_Q rp) in
    let* U := p_Mul (mr_F pp) (mq_γ rp) in
    let* _ := p_Add U V in
    let* t := p_Mul (mq_W rp) x in let* _ := p_Add U t in
    let* rdx := m_ppRdx pp in
    let* ir := m_IterativeVerify rdx U (mq_Δ rp) (mq_u rp) in
    match ir with
    | inr err => mret (Err ("iterated reduction proof invalid: " +:+ err))
    | inl (xs, u) =>
      let xs := Vec_Reverse xs in
      let* f := mlift (compute_f n xs) in
      let* d := mlift (computeD n m f x) in
      let* y0 := m_rp_y pp 0 x (mq_Q rp) (mq_R rp) in
      let* y1 := m_rp_y pp 1 x (mq_Q rp) (mq_R rp) in
      let y0v := PowerSeries (n * m) y0 in
      let y1v := Vec_Mul (expand (IntToZr 1) (n * m)) y1 in
      let* z := m_computeZ pp (mq_C1 rp) (mq_C2 rp) (mq_Q rp) (mq_R rp) (Zr_Bytes y0) (Zr_Bytes y1) in
      let* Fprime := m_rp_Fprime pp y0 in
      let* ipaPP := m_rp_ipaPP pp Fprime in
      let* P := m_computeP pp (mq_ρ rp) (mq_Q rp) (mq_R rp) z y1v n m Fprime d y1 in
      let* _ := ipp_set (mq_Π rp) P (mq_c rp) in
      let* e := m_IPP_Verify (mq_Π rp) ipaPP in
      match e with
      | Err err => mret (Err ("inner product proof invalid: " +:+ err))
      | nil_error =>
        let* β1 := mlift (Vec_InnerProd (expand (IntToZr 1) (n * m)) y0v) in
        let* β2 := mlift (Vec_InnerProd (expand (IntToZr 1) (n * m)) y0v) in
        let* d' := mlift (slice_to (n * m) d) in
        let* β3 := mlift (Vec_InnerProd (expand (IntToZr 1) (n * m)) d') in
        let c0 := β3 * (y1 * y1 * y1) + y1 * y1 * (u + β2) + β1 * y1 in
        let* left_ := p_Mul (mq_C1 rp) z in
        let* t := p_Mul (mq_C2 rp) (z * z) in let* _ := p_Add left_ t in
        let* t := p_Mul (mr_G pp) c0 in let* _ := p_Add left_ t in
        let* right_ := p_Mul (mr_G pp) (mq_c rp) in
        let* t := p_Mul (mr_H pp) (mq_τ rp) in let* _ := p_Add right_ t in
        let* eq := p_Equals left_ right_ in
        if eq then mret nil_error else mret (Err "invalid range proof")
      end
    end.
  (** bp/range.go:162-258, everything up to the self-check; the random values are arguments as in Model_range. *)
  Definition m_ProveRange_unchecked (pp : mRPPP) (V : loc) (v : list Zr) (r : Zr) (co : RangeCoins) : M (mRangeProof * mbpPP) :=
    let n := length (mr_Gs pp) in
    let m := rp_m in
    let w := co_w co in
    let* W := p_Mul (mr_F pp) (co_rPrime co) in
    let* t := m_MulV (mr_Gs pp) w in let* s := m_Sum t in let* _ := p_Add W s in
    let* bits := mlift (Vec_Bits v m) in
    let vBits := IntsToZr bits ++ w in
    let* vBits_nm := mlift (slice_to (n * m) vBits) in
    let* wCaret := mlift (Vec_Sub (expand (IntToZr 1) (n * m)) vBits_nm) in
    let* Q := p_Mul (mr_F pp) (co_ν co) in
    let* t := m_MulV (mr_Hs pp) vBits in let* s := m_Sum t in let* _ := p_Add Q s in
    let* Fs' := mlift (slice_to (n * m) (mr_Fs pp)) in
    let* t := m_MulV Fs' wCaret in let* s := m_Sum t in let* _ := p_Add Q s in
    let* x := m_rangeProofRO1 pp V W Q in
    let γ := NegZr (r + x * co_rPrime co) in
    let* U := p_Mul (mr_F pp) γ in
    let* _ := p_Add U V in
    let* t := p_Mul W x in let* _ := p_Add U t in
    let* rdx := m_ppRdx pp in
    let* wRdx := mlift (Vec_Add v (Vec_Mul w x)) in
    let* '(Δ, xs, u) := m_IterativeReduce rdx wRdx U in
    let xs := Vec_Reverse xs in
    let* f := mlift (compute_f n xs) in
    let* d := mlift (computeD n m f x) in
    let* R := p_Mul (mr_F pp) (co_η co) in
    let* t := m_MulV (mr_Hs pp) (co_s co) in let* s := m_Sum t in let* _ := p_Add R s in
    let* t := m_MulV Fs' (co_t co) in let* s := m_Sum t in let* _ := p_Add R s in
    let* y0 := m_rp_y pp 0 x Q R in
    let* y1 := m_rp_y pp 1 x Q R in
    let y0v := PowerSeries (n * m) y0 in
    let y1v := Vec_Mul (expand (IntToZr 1) (n * m)) y1 in
    let zs := expand (IntToZr 0) n in
    let* aPrime := mlift (Vec_Add vBits (Vec_Concat y1v zs)) in
    let* b1 := mlift (Vec_Add (Vec_Mul d (y1 * y1)) (Vec_Mul (Vec_Concat y0v zs) y1)) in
    let* wy := mlift (Vec_HadamardProd wCaret y0v) in
    let* bPrime := mlift (Vec_Add b1 (Vec_Concat wy zs)) in
    let* y0t := mlift (Vec_HadamardProd y0v (co_t co)) in
    let* aP_nm := mlift (slice_to (n * m) aPrime) in
    let* c1a := mlift (Vec_InnerProd aP_nm y0t) in
    let* c1b := mlift (Vec_InnerProd (co_s co) bPrime) in
    let c1 := c1a + c1b in
    let* s_nm := mlift (slice_to (n * m) (co_s co)) in
    let* c2 := mlift (Vec_InnerProd s_nm y0t) in
    let* C1 := p_Mul (mr_G pp) c1 in
    let* C2 := p_Mul (mr_G pp) c2 in
    let* t := p_Mul (mr_H pp) (co_τ1 co) in let* _ := p_Add C1 t in
    let* t := p_Mul (mr_H pp) (co_τ2 co) in let* _ := p_Add C2 t in
    let* z := m_computeZ pp C1 C2 Q R (Zr_Bytes y0) (Zr_Bytes y1) in
    let ρ := NegZr (co_ν co + co_η co * z) in
    let τ := co_τ1 co * z + co_τ2 co * (z * z) in
    let* Fprime := m_rp_Fprime pp y0 in
    let* a := mlift (Vec_Add aPrime (Vec_Mul (co_s co) z)) in
    let* b := mlift (Vec_Add bPrime (Vec_Mul (Vec_Concat y0t zs) z)) in
    let* c := mlift (Vec_InnerProd a b) in
    let* ipaPP := m_rp_ipaPP pp Fprime in
    let* ipa := m_NewInnerProdArgument ipaPP a b in
    let* ipp := m_IPA_Prove ipa in
    mret (MkMRP Δ u W γ ipp c Q R C1 C2 τ ρ, ipaPP).
  (** bp/range.go:162-278 *)
  Definition m_ProveRange (pp : mRPPP) (V : loc) (v : list Zr) (r : Zr) (co : RangeCoins) : M mRangeProof :=
    let* '(rp, ipaPP) := m_ProveRange_unchecked pp V v r co in
    let* e := m_IPP_Verify (mq_Π rp) ipaPP in
    match e with nil_error => mret rp | Err _ => mpanic end.

  (** ** pp/pointproofs.go *)
  (** pp/pointproofs.go:17-23 *)
  Record mPP : Type := MkMPP {
    mp_Digest : bytes; mp_N : nat; mp_G1s : list loc; mp_G2s : list (G2 C); mp_Gt : GT C }.
  (** The map of a loop that may panic *)
  Fixpoint mmapM {A B} (f : A -> M B) (l : list A) : M (list B) :=
    match l with [] => mret [] | x :: l => let* y := f x in let* ys := mmapM f l in mret (y :: ys) end.
  (** pp/pointproofs.go:79-90 *)
  Definition m_Commit (pp : mPP) (m : list Zr) : M loc :=
    check* (length m =? mp_N pp)%nat in
    let* powersOfAlpha := mlift (mapM (fun i => idx (mp_G1s pp) i) (seq 0 (mp_N pp))) in
    let* l := m_MulV powersOfAlpha m in
    m_Sum l.
  (** pp/pointproofs.go:92-114 *)
  Definition m_Open (pp : mPP) (i : nat) (m : list Zr) : M (Zr * loc) :=
    check* (i <? mp_N pp)%nat in
    let shift := (mp_N pp - i)%nat in
    let js := filter (fun j => j <> (i + 1)%nat) (seq 1 (mp_N pp)) in
    let* elements := mlift (mapM (fun j => idx (mp_G1s pp) (shift + j - 1)) js) in
    let* exponents := mlift (mapM (fun j => idx m (j - 1)) js) in
    let* l := m_MulV elements exponents in
    let* π := m_Sum l in
    let* mi := mlift (idx m i) in
    mret (mi, π).
  (** pp.G2s[pp.N-i-1] (pp/pointproofs.go:117, 155) *)
  Definition m_g2_at (pp : mPP) (i : nat) : res (G2 C) := idxZ (mp_G2s pp) (Z.of_nat (mp_N pp) - Z.of_nat i - 1).
  (** pp/pointproofs.go:116-125 *)
  Definition m_pp_Verify (pp : mPP) (mi : Zr) (π : loc) (Cm : loc) (i : nat) : M error :=
    let* g2 := mlift (m_g2_at pp i) in
    let* lhs := m_InnerProd [Cm] [g2] in
    let* rhs := m_InnerProd [π] [gen2 C] in
    let rhs := gadd rhs (gmul mi (mp_Gt pp)) in
    if geqb lhs rhs then mret nil_error else mret (Err "is not an element in index").
  (** pp/pointproofs.go:127-132: the object Cm points to is overwritten. *)
  Definition m_Update (pp : mPP) (Cm : loc) (m : list Zr) (mi : Zr) (i : nat) : M unit :=
    let* g := mlift (idx (mp_G1s pp) i) in
    let* old := mlift (idx m i) in
    let* prevG := p_Mul g old in
    let* nextG := p_Mul g mi in
    let* _ := p_Sub Cm prevG in
    p_Add Cm nextG.
  (** pp/pointproofs.go:170-180 *)
  Definition m_pp_RO (pp : mPP) (cs : list loc) (i : nat) : M Zr :=
    let* vs := derefs cs in
    mlift (FieldElementFromBytes (sha256 C (mp_Digest pp ++ [(Z.of_nat i mod 256)%Z] ++ concat (enc1 C <$> vs)))).
  (** pp/pointproofs.go:134-145, with the function RO of the package *)
  Definition m_Aggregate (pp : mPP) (commitments proofs : list loc) : M loc :=
    check* (length proofs =? length commitments)%nat in
    let* π := mmapM (fun j => let* p := mlift (idx proofs j) in let* x := m_pp_RO pp commitments j in p_Mul p x)
                (seq 0 (length proofs)) in
    m_Sum π.
  (** pp/pointproofs.go:147-168, with the function RO of the package *)
  Definition m_VerifyAggregation (pp : mPP) (indices : list nat) (commitments : list loc) (π : loc) (Σ : Zr) : M error :=
    let* exponents := mmapM (fun i => m_pp_RO pp commitments i) (seq 0 (length indices)) in
    let* g2s := mlift (mapM (fun i => m_g2_at pp i) indices) in
    let* g2s := mlift (G2v_Mulv g2s exponents) in
    let* lhs := m_InnerProd commitments g2s in
    let* πg2 := m_InnerProd [π] [gen2 C] in
    let rhs := gadd (gmul Σ (mp_Gt pp)) πg2 in
    if geqb rhs lhs then mret nil_error else mret (Err "invalid aggregation").

  (** ** sum/sa.go *)
  (** sum/sa.go:16-24 *)
  Record msumPP : Type := MkMsum {
    ms_U : loc; ms_Gs : list loc; ms_F : loc; ms_H : list loc; ms_b : list Zr; ms_B : loc }.
  (** sum/sa.go:63-68 *)
  Record msumProof : Type := MkMsp { mt_W : loc; mt_c : Zr; mt_ρ : Zr; mt_π : iloc }.
  (** sum/sa.go:175-183 *)
  Definition m_randomOracleCVW (c : Zr) (V W : loc) : M Zr :=
    let* v := p_Bytes V in let* w := p_Bytes W in mlift (FieldElementFromBytes (sha256 C (Zr_Bytes c ++ v ++ w))).
  (** sum/sa.go:159-165 and 193-199 *)
  Definition m_sum_ipaPP (pp : msumPP) : M mbpPP := m_RecomputeDigest (MkMbp [] (ms_Gs pp) (ms_H pp) (ms_U pp)).
  (** sum/sa.go:118-135 *)
  Definition m_NewCommitment (pp : msumPP) (v : list Zr) (r : Zr) : M loc :=
    let* V := p_Mul (ms_F pp) r in
    let* t := m_MulV (ms_Gs pp) v in let* s := m_Sum t in let* _ := p_Add V s in
    let* v0 := mlift (idx v 0) in
    let n := length v in
    let sum := fold_left zadd (take (n - 2) (drop 1 v)) v0 in
    let* vn := mlift (idx v (n - 1)) in
    check* zeqb vn sum in mret V.
  (** sum/sa.go:137-173, including P (lines 154-157), which is not used *)
  Definition m_NewArgument (pp : msumPP) (V : loc) (v : list Zr) (r : Zr) (w : list Zr) (rPrime : Zr) : M msumProof :=
    let* W := p_Mul (ms_F pp) rPrime in
    let* t := m_MulV (ms_Gs pp) w in let* s := m_Sum t in let* _ := p_Add W s in
    let* c := mlift (Vec_InnerProd w (ms_b pp)) in
    let* x := m_randomOracleCVW c V W in
    let ρ := sum_negZr (r + rPrime * x) in
    let* P := p_Mul (ms_F pp) ρ in
    let* _ := p_Add P V in
    let* t := p_Mul W x in let* _ := p_Add P t in
    let* _ := p_Add P (ms_B pp) in
    let* ipaPP := m_sum_ipaPP pp in
    let* a := mlift (Vec_Add v (Vec_Mul w x)) in
    let* arg := m_NewInnerProdArgument ipaPP a (ms_b pp) in
    let* π := m_IPA_Prove arg in
    mret (MkMsp W c ρ π).
  (** sum/sa.go:185-204 *)
  Definition m_sum_Verify (proof : msumProof) (pp : msumPP) (V : loc) : M error :=
    let* x := m_randomOracleCVW (mt_c proof) V (mt_W proof) in
    let* P := p_Mul (ms_F pp) (mt_ρ proof) in
    let* _ := p_Add P V in
    let* t := p_Mul (mt_W proof) x in let* _ := p_Add P t in
    let* _ := p_Add P (ms_B pp) in
    let* ipaPP := m_sum_ipaPP pp in
    let* _ := ipp_set (mt_π proof) P (mt_c proof * x) in
    m_IPP_Verify (mt_π proof) ipaPP.
  (** sum/sa.go:90-103 *)
  Definition m_createHVZKChallenge (V : list loc) (m : nat) : M (list Zr) :=
    let* vs := derefs V in mlift (createHVZKChallenge vs m).
  (** sum/sa.go:70-88 *)
  Definition m_NewAggregatedArgument (pp : msumPP) (V : list loc) (v : list (list Zr)) (r : list Zr)
      (w : list Zr) (rPrime : Zr) : M msumProof :=
    let* t := m_createHVZKChallenge V (length v) in
    let* v0 := mlift (idx v 0) in
    let* vAggr := mlift (mapM (sum_aggr_entry v t) (seq 0 (length v0))) in
    let* rAggr := mlift (Vec_InnerProd r t) in
    let* l := m_MulV V t in let* VAggr := m_Sum l in
    m_NewArgument pp VAggr vAggr rAggr w rPrime.
  (** sum/sa.go:109-116 *)
  Definition m_VerifyAggregated (proof : msumProof) (pp : msumPP) (V : list loc) : M error :=
    let* t := m_createHVZKChallenge V (length V) in
    let* l := m_MulV V t in let* VAggr := m_Sum l in
    m_sum_Verify proof pp VAggr.

  (** ** poe/poe.go *)
  (** poe/poe.go:21-26 *)
  Record mpoePP : Type := MkMpoe { mo_Digest : bytes; mo_G : list loc; mo_H : list loc; mo_F : loc; mo_PP : mPP }.
  (** The field RO is called with pointers and reads them. *)
  Definition m_ro (RO : poeRO C) (gs : list loc) (integers : list nat) (d : bytes) (n : nat) : M (list Zr) :=
    let* vs := derefs gs in mlift (RO vs integers d n).
  (** poe/poe.go:250-255, 301-306 *)
  Record mEquality : Type := MkMeq { me_RO : poeRO C; me_PP : mpoePP; me_V : loc; me_W : loc; me_I : nat; me_J : nat }.
  Record meqProof : Type := MkMeqp { mf_C : Zr; mf_V : loc; mf_W : loc; mf_Ω : loc }.
  (** poe/poe.go:308-341 *)
  Definition m_Equality_Verify (e : mEquality) (Υ : meqProof) : M error :=
    let pp := mo_PP (me_PP e) in
    let* xl := m_ro (me_RO e) [me_V e; me_W e; mf_V Υ; mf_W Υ] [] (mo_Digest (me_PP e)) 1%nat in
    let* x := mlift (idx xl 0) in
    let* g := p_Copy GenG1 in
    let* Vx := p_Mul (mf_V Υ) x in let* Wx := p_Mul (mf_W Υ) x in let* gC := p_Mul g (mf_C Υ) in
    let* ts := m_ro (me_RO e) [me_V e; me_W e; Vx; Wx; gC] [me_I e; me_J e] (mo_Digest (me_PP e)) 2%nat in
    let* t0 := mlift (idx ts 0) in let* t1 := mlift (idx ts 1) in
    let* VVx := p_Mul (mf_V Υ) x in let* _ := p_Add VVx (me_V e) in let* VVx := p_Mul VVx t0 in
    let* WWx := p_Mul (mf_W Υ) x in let* _ := p_Add WWx (me_W e) in let* WWx := p_Mul WWx t1 in
    let* g2I := mlift (idx_last (mp_G2s pp) (me_I e)) in
    let* r := m_InnerProd [VVx] [g2I] in
    let* g2J := mlift (idx_last (mp_G2s pp) (me_J e)) in
    let* l := m_InnerProd [WWx] [g2J] in
    let numerator := gadd r l in
    let* l := m_InnerProd [mf_Ω Υ] [gen2 C] in
    let* g10 := mlift (idx (mp_G1s pp) 0) in
    let* g2l := mlift (idx_last (mp_G2s pp) 0) in
    let* r := m_InnerProd [g10] [g2l] in
    let r := gmul (mf_C Υ * (t0 + t1)) r in
    let denominator := gadd l r in
    if geqb numerator denominator then mret nil_error else mret (Err "PoE invalid").
  (** poe/poe.go:345-398 *)
  Definition m_Equality_Prove (e : mEquality) (v w : list Zr) (u η ν : Zr) : M meqProof :=
    let pp := mo_PP (me_PP e) in
    let* vI := mlift (idx v (me_I e)) in let* wJ := mlift (idx w (me_J e)) in
    check* zeqb vI wJ in
    check* (length v =? length w)%nat in
    let n := length v in
    let* g1I := mlift (idx (mp_G1s pp) (me_I e)) in
    let* V := p_Mul g1I u in
    let* g1n := mlift (idxZ (mp_G1s pp) (Z.of_nat n - 1)) in
    let* t := p_Mul g1n ν in let* _ := p_Add V t in
    let* gl := mlift (idx_last (mp_G1s pp) (me_I e)) in
    let* ΩV := p_Mul gl ν in
    let* g1J := mlift (idx (mp_G1s pp) (me_J e)) in
    let* W := p_Mul g1J u in
    let* t := p_Mul g1n η in let* _ := p_Add W t in
    let* gl := mlift (idx_last (mp_G1s pp) (me_J e)) in
    let* ΩW := p_Mul gl η in
    let* xl := m_ro (me_RO e) [me_V e; me_W e; V; W] [] (mo_Digest (me_PP e)) 1%nat in
    let* x := mlift (idx xl 0) in
    let* g := p_Copy GenG1 in
    let c := vI + u * x in
    let* Vx := p_Mul V x in let* Wx := p_Mul W x in let* gc := p_Mul g c in
    let* ts := m_ro (me_RO e) [me_V e; me_W e; Vx; Wx; gc] [me_I e; me_J e] (mo_Digest (me_PP e)) 2%nat in
    let* t0 := mlift (idx ts 0) in let* t1 := mlift (idx ts 1) in
    let* '(_, ΩVpp) := m_Open pp (me_I e) v in
    let* '(_, ΩWpp) := m_Open pp (me_J e) w in
    let* ΩV := p_Mul ΩV x in let* _ := p_Add ΩV ΩVpp in let* ΩV := p_Mul ΩV t0 in
    let* ΩW := p_Mul ΩW x in let* _ := p_Add ΩW ΩWpp in let* ΩW := p_Mul ΩW t1 in
    let Ω := ΩV in
    let* _ := p_Add Ω ΩW in
    mret (MkMeqp c V W Ω).
  (** poe/poe.go:53-65 *)
  Record mEqualities : Type := MkMeqs {
    mg_RO : poeRO C; mg_PP : mpoePP; mg_V : list loc; mg_W : list loc; mg_I : list nat; mg_J : list nat }.
  Record mAggProof : Type := MkMap {
    mh_IPP : iloc; mh_c : Zr; mh_ρ : Zr; mh_U : loc; mh_V : loc; mh_Ω : loc; mh_Waggr : list loc; mh_Vaggr : list loc }.
  (** poe/poe.go:114-120 and 213-218 *)
  Definition m_poe_bpPP (pp : mpoePP) : M mbpPP :=
    let* us := m_RandGenVec 1 "u" in let* u := mlift (idx us 0) in
    m_RecomputeDigest (MkMbp [] (mo_G pp) (mo_H pp) u).
  (** poe/poe.go:88-96 *)
  Definition m_poe_g2s (pp : mPP) (I : list nat) (m : nat) : res (list (G2 C)) :=
    mapM (fun k => let! i := idx I k in idxZ (mp_G2s pp) (Z.of_nat (mp_N pp) - 1 - Z.of_nat i)) (seq 0 m).
  (** poe/poe.go:71-127 *)
  Definition m_Equalities_Verify (e : mEqualities) (proof : mAggProof) : M error :=
    let pp := mo_PP (mg_PP e) in
    let groupElements := mh_Vaggr proof ++ mh_Waggr proof ++ mg_V e ++ mg_W e in
    let* xl := m_ro (mg_RO e) groupElements [] (mo_Digest (mg_PP e)) 1%nat in
    let* x := mlift (idx xl 0) in
    let m := length (mg_V e) in
    let groupElements := groupElements ++ [mh_U proof; mh_V proof] in
    let* ts := m_ro (mg_RO e) groupElements [] (mo_Digest (mg_PP e)) (2 * m)%nat in
    let* g2sV := mlift (m_poe_g2s pp (mg_I e) m) in
    let* g2sW := mlift (m_poe_g2s pp (mg_J e) m) in
    let* te := mlift (Vec_Evens ts) in let* to := mlift (Vec_Odds ts) in
    let* t := m_Mul (mh_Vaggr proof) x in let* A := m_G1v_Add (mg_V e) t in let* A := m_MulV A te in
    let* numV := m_InnerProd A g2sV in
    let* t := m_Mul (mh_Waggr proof) x in let* B := m_G1v_Add (mg_W e) t in let* B := m_MulV B to in
    let* numW := m_InnerProd B g2sW in
    let numerator := gadd numV numW in
    let* denominator := m_InnerProd [mh_Ω proof] [gen2 C] in
    let* g10 := mlift (idx (mp_G1s pp) 0) in
    let* t := p_Mul g10 (mh_c proof) in
    let* g2l := mlift (idx_last (mp_G2s pp) 0) in
    let* d2 := m_InnerProd [t] [g2l] in
    let denominator := gadd denominator d2 in
    if geqb numerator denominator then
      let* b := mlift (Vec_Add te to) in
      let* P := p_Mul (mo_F (mg_PP e)) (mh_ρ proof) in
      let* t := p_Mul (mh_U proof) x in let* _ := p_Add P t in
      let* _ := p_Add P (mh_V proof) in
      let* t := m_MulV (mo_H (mg_PP e)) b in let* s := m_Sum t in let* _ := p_Add P s in
      let* bp := m_poe_bpPP (mg_PP e) in
      let* _ := ipp_set (mh_IPP proof) P (mh_c proof) in
      m_IPP_Verify (mh_IPP proof) bp
    else mret (Err "PoE invalid: aggregation condition not satisfied").
  (** poe/poe.go:148-171 *)
  Record mIter : Type := MkMiter { mj_V : loc; mj_Ωv : loc; mj_W : loc; mj_Ωw : loc; mj_ΩvPP : loc; mj_ΩwPP : loc }.
  Definition m_poe_iter (e : mEqualities) (n : nat) (vs ws : list (list Zr)) (coins : list (Zr * Zr * Zr)) (k : nat) : M mIter :=
    let pp := mo_PP (mg_PP e) in
    let* '(uk, ηk, νk) := mlift (idx coins k) in
    let* Ik := mlift (idx (mg_I e) k) in let* Jk := mlift (idx (mg_J e) k) in
    let* gI := mlift (idx (mp_G1s pp) Ik) in
    let* gn := mlift (idxZ (mp_G1s pp) (Z.of_nat n - 1)) in
    let* Vk := p_Mul gI uk in
    let* t := p_Mul gn νk in let* _ := p_Add Vk t in
    let* lI := mlift (idx_last (mp_G1s pp) Ik) in
    let* ΩVk := p_Mul lI νk in
    let* gJ := mlift (idx (mp_G1s pp) Jk) in
    let* Wk := p_Mul gJ uk in
    let* t := p_Mul gn ηk in let* _ := p_Add Wk t in
    let* lJ := mlift (idx_last (mp_G1s pp) Jk) in
    let* ΩWk := p_Mul lJ ηk in
    let* vk := mlift (idx vs k) in
    let* '(_, ΩVpp) := m_Open pp Ik vk in
    let* wk := mlift (idx ws k) in
    let* '(_, ΩWpp) := m_Open pp Jk wk in
    mret (MkMiter Vk ΩVk Wk ΩWk ΩVpp ΩWpp).
  (** poe/poe.go:131-236 *)
  Definition m_Equalities_Prove (e : mEqualities) (vs ws : list (list Zr)) (coins : list (Zr * Zr * Zr)) (r1 r2 : Zr) : M mAggProof :=
    let pp := mg_PP e in
    let m := length (mg_V e) in
    check* (length (mg_W e) =? m)%nat in
    check* (length vs =? m)%nat in
    check* (length ws =? m)%nat in
    let* vs0 := mlift (idx vs 0) in
    let n := length vs0 in
    let* its := mmapM (m_poe_iter e n vs ws coins) (seq 0 m) in
    let Vaggr := mj_V <$> its in let Waggr := mj_W <$> its in
    let u := (fun c => fst (fst c)) <$> take m coins in
    let groupElements := Vaggr ++ Waggr ++ mg_V e ++ mg_W e in
    let* xl := m_ro (mg_RO e) groupElements [] (mo_Digest pp) 1%nat in
    let* x := mlift (idx xl 0) in
    let* v := mlift (mapM (fun i => let! vi := idx vs i in let! Ii := idx (mg_I e) i in idx vi Ii) (seq 0 m)) in
    let* U := p_Mul (mo_F pp) r1 in
    let* t := m_MulV (mo_G pp) u in let* s := m_Sum t in let* _ := p_Add U s in
    let* V := p_Mul (mo_F pp) r2 in
    let* t := m_MulV (mo_G pp) v in let* s := m_Sum t in let* _ := p_Add V s in
    let groupElements := groupElements ++ [U; V] in
    let* ts := m_ro (mg_RO e) groupElements [] (mo_Digest pp) (2 * m)%nat in
    let* te := mlift (Vec_Evens ts) in let* to := mlift (Vec_Odds ts) in
    let* t := m_Mul (mj_Ωv <$> its) x in let* A := m_G1v_Add (mj_ΩvPP <$> its) t in
    let* t := m_MulV A te in let* Ω := m_Sum t in
    let* t := m_Mul (mj_Ωw <$> its) x in let* B := m_G1v_Add (mj_ΩwPP <$> its) t in
    let* t := m_MulV B to in let* s := m_Sum t in
    let* _ := p_Add Ω s in
    let* a := mlift (Vec_Add (Vec_Mul u x) v) in
    let* b := mlift (Vec_Add te to) in
    let ρ := poe_negZr (r1 * x + r2) in
    let* P := p_Mul (mo_F pp) ρ in
    let* t := p_Mul U x in let* _ := p_Add P t in
    let* _ := p_Add P V in
    let* t := m_MulV (mo_H pp) b in let* s := m_Sum t in let* _ := p_Add P s in
    let* bp := m_poe_bpPP pp in
    let* ipa := m_NewInnerProdArgument bp a b in
    let* ipp := m_IPA_Prove (MkMipa (ma_pp ipa) (ma_a ipa) (ma_b ipa) (ma_C ipa) P) in
    let* o := ipp_get ipp in
    mret (MkMap ipp (io_C o) ρ U V Ω Waggr Vaggr).
End Mem.

(** ** pol/pol.go: what a verifier runs *)
Section Mem_pol.
  Context {C : Curve}.
  Local Notation M := (M C).
  (** pol/pol.go:39-45 *)
  Record mPolPP : Type := MkMpol {
    mk_PPPP : mPP (C:=C); mk_SAPP : msumPP; mk_RPPP : mRPPP; mk_POEPP : mpoePP (C:=C); mk_Fanout : nat }.
  (** pol/pol.go:269-272 *)
  Record mTotalProof : Type := MkMtp { mx_proof : loc; mx_Sum : Z }.
  (** pol/pol.go:274-277 *)
  Definition m_TotalProof_Verify (tp : mTotalProof) (pp : mPolPP) (V : loc) : M error :=
    m_pp_Verify (mk_PPPP pp) (IntToZr (mx_Sum tp)) (mx_proof tp) V (mk_Fanout pp).
  (** pol/pol.go:103-113 *)
  Record mLiabilityProof : Type := MkMlp {
    ml_Σ : Zr; ml_π : loc; ml_sum : msumProof; ml_V : list loc; ml_W : list loc; ml_Digests : list Zr;
    ml_RangeProofs : list mRangeProof; ml_Eq : mAggProof; ml_Liability : mTotalProof }.
  (** pol/pol.go:235-245 *)
  Definition m_checkInner (lp : mLiabilityProof) (i : nat) : M error :=
    let* V := mlift (idx (ml_V lp) i) in
    let* W := mlift (idx (ml_W lp) i) in
    let* v := p_Bytes V in let* w := p_Bytes W in
    let* expectedPreviousDigest := mlift (FieldElementFromBytes (sha256 C (v ++ w))) in
    let* d := mlift (idxZ (ml_Digests lp) (Z.of_nat i - 1)) in
    if zeqb d expectedPreviousDigest then mret nil_error else mret (Err "hash path mismatch").
  (** pol/pol.go:247-256 *)
  Definition m_checkLeaf (lp : mLiabilityProof) (i : nat) : M error :=
    let* V := mlift (idx (ml_V lp) i) in
    let* v := p_Bytes V in
    let* expectedPreviousDigest := mlift (FieldElementFromBytes (sha256 C v)) in
    let* d := mlift (idxZ (ml_Digests lp) (Z.of_nat i - 1)) in
    if zeqb d expectedPreviousDigest then mret nil_error else mret (Err "hash path mismatch").
  (** pol/pol.go:126-137 *)
  Definition m_verify_header (lp : mLiabilityProof) (path : path) (V W : loc) : M error :=
    if (Z.of_nat (length (ml_W lp)) =? Z.of_nat (length path) - 1)%Z && (length (ml_Digests lp) =? length path)%nat then
      let* V0 := mlift (idx (ml_V lp) 0) in
      let* eq := p_Equals V0 V in
      if eq then
        let* W0 := mlift (idx (ml_W lp) 0) in
        let* eq := p_Equals W0 W in
        if eq then mret nil_error else mret (Err "root W does not match public known W value")
      else mret (Err "root V does not match public known V value")
    else mret (Err "expected digest proofs of another size").
  (** pol/pol.go:155-160, 170, 172 *)
  Definition m_verify_args (lp : mLiabilityProof) (path : path) (i : nat) : M (mRangeProof * loc) :=
    let* _ := mlift (if (i <? length path - 1)%nat then let! _ := idx (ml_V lp) i in idx (ml_V lp) (i + 1) else idx (ml_V lp) i) in
    let* rp := mlift (idx (ml_RangeProofs lp) i) in
    let* V := mlift (idx (ml_V lp) i) in
    mret (rp, V).
  (** pol/pol.go:175-192 *)
  Definition m_verify_digest (lp : mLiabilityProof) (path : path) (i : nat) : M error :=
    if (i =? length path - 1)%nat then m_checkLeaf lp i
    else if (0 <? i)%nat then m_checkInner lp i
    else mret nil_error.
  (** pol/pol.go:144-160 and 205-215: the padding repeats one pointer. *)
  Definition m_verify_equalities (pp : mPolPP) (lp : mLiabilityProof) (path : path) : M mEqualities :=
    let k := (length path - 1)%nat in
    let* V := mlift (mapM (fun i => idx (ml_V lp) i) (seq 0 k)) in
    let* W := mlift (mapM (fun i => idx (ml_V lp) (i + 1)) (seq 0 k)) in
    let* zeroCommit := m_Commit (mk_PPPP pp) (replicate (mk_Fanout pp + 2) (IntToZr 0)) in
    let* m := mlift (pad_to_pow2 k) in
    mret (MkMeqs poe_RO (mk_POEPP pp) (V ++ replicate (m - k) zeroCommit) (W ++ replicate (m - k) zeroCommit)
                 (take k path ++ replicate (m - k) 0%nat) (replicate k (mk_Fanout pp) ++ replicate (m - k) 0%nat)).
  (** pol/pol.go:195-221 *)
  Definition m_verify_arguments (pp : mPolPP) (lp : mLiabilityProof) (path : path) : M error :=
    let* e := m_VerifyAggregation (mk_PPPP pp) (take (length path - 1) path) (ml_W lp) (ml_π lp) (ml_Σ lp) in
    match e with Err err => mret (Err ("hash chain aggregation proof invalid: " +:+ err)) | nil_error =>
    let* e := m_VerifyAggregated (ml_sum lp) (mk_SAPP pp) (ml_V lp) in
    match e with Err err => mret (Err ("failed verifying sum argument: " +:+ err)) | nil_error =>
    let* equalities := m_verify_equalities pp lp path in
    let* e := m_Equalities_Verify equalities (ml_Eq lp) in
    match e with Err _ => mret (Err "failed verifying equality proof") | nil_error => mret nil_error end end end.
  (** pol/pol.go:228-230 *)
  Definition m_verify_liability (pp : mPolPP) (lp : mLiabilityProof) (path : path) : M error :=
    let* V := mlift (idx_last (ml_V lp) 0) in
    let* i := mlift (idx_last path 0) in
    let* e := m_pp_Verify (mk_PPPP pp) (IntToZr (mx_Sum (ml_Liability lp))) (mx_proof (ml_Liability lp)) V i in
    match e with Err err => mret (Err ("client liability proof is invalid: " +:+ err)) | nil_error => mret nil_error end.
  (** pol/pol.go:153-193 *)
  Fixpoint m_verify_loop (pp : mPolPP) (lp : mLiabilityProof) (path : path) (is : list nat) (stored : error) : M (error + error) :=
    match is with
    | [] => mret (inl stored)
    | i :: is =>
      let* '(rp, V) := m_verify_args lp path i in
      let* e := m_VerifyRange (mk_RPPP pp) rp V in
      let stored := match e with Err _ => e | nil_error => stored end in
      let* e := m_verify_digest lp path i in
      match e with Err _ => mret (inr e) | nil_error => m_verify_loop pp lp path is stored end
    end.
  (** pol/pol.go:124-233 with ParallelismEnabled = false *)
  Definition m_LiabilityProof_Verify (lp : mLiabilityProof) (pp : mPolPP) (id : string) (V W : loc) (id2path : string -> res path) : M error :=
    let* path := mlift (id2path id) in
    let* e := m_verify_header lp path V W in
    match e with Err _ => mret e | nil_error =>
    let* r := m_verify_loop pp lp path (seq 0 (length path)) nil_error in
    match r with inr e => mret e | inl stored =>
    let* e := m_verify_arguments pp lp path in
    match e with Err _ => mret e | nil_error =>
    match stored with Err _ => mret stored | nil_error => m_verify_liability pp lp path end end end end.
  (** pp/pointproofs.go:25-61 *)
  Definition m_pp_NewPublicParams (N : nat) (α : Zr) : M (mPP (C:=C)) :=
    let* g1 := p_Copy GenG1 in
    let* s1 := mmapM (fun i => p_Mul g1 (α ^ i)) (seq 1 N) in
    let* g := p_Copy GenG1 in
    let* s2 := mmapM (fun i => p_Mul g1 (α ^ i)) (seq (N + 2) (2 * N + 1 - (N + 2))) in
    let G1s := s1 ++ [g] ++ s2 in
    let G2s := (fun i => gmul (α ^ i) (gen2 C)) <$> seq 1 N in
    let Gt := gmul (α ^ (N + 1)) GenGt in
    let* vs := derefs G1s in
    mret (MkMPP (pp_digest vs G2s Gt) N G1s G2s Gt).
  (** poe/poe.go:32-51 *)
  Definition m_poe_NewPublicParams (n m : nat) (α : Zr) : M (mpoePP (C:=C)) :=
    let* pp := m_pp_NewPublicParams n α in
    let* G := m_RandGenVec m "POE G" in
    let* H := m_RandGenVec m "POE H" in
    let* fs := m_RandGenVec 1 "POE F" in let* F := mlift (idx fs 0) in
    let* gv := derefs G in let* hv := derefs H in let* fv := p_Bytes F in
    mret (MkMpoe (sha256 C (G1v_Bytes gv ++ G1v_Bytes hv ++ fv ++ mp_Digest pp)) G H F pp).
  (** sum/sa.go:30-57, without the digest, which nothing reads, and without G, which only the digest covers *)
  Definition m_sum_NewPublicParams (n : nat) : M msumPP :=
    let* Gs := m_RandGenVec n "sum argument Gs" in
    let* us := m_RandGenVec 1 "IPA u" in let* U := mlift (idx us 0) in
    let* gs := m_RandGenVec 1 "sum argument G" in let* _ := mlift (idx gs 0) in
    let* fs := m_RandGenVec 1 "sum argument F" in let* F := mlift (idx fs 0) in
    let* H := m_RandGenVec n "sum argument H" in
    let* b := mlift (sum_weights n) in
    let* l := m_MulV H b in let* B := m_Sum l in
    mret (MkMsum U Gs F H b B).
  (** bp/range.go:18-32, 38-53 *)
  Definition m_NewRangeProofPublicParams (n : nat) : M mRPPP :=
    let* gs := m_RandGenVec 1 "range proof G" in let* G := mlift (idx gs 0) in
    let* hs := m_RandGenVec 1 "range proof H" in let* H := mlift (idx hs 0) in
    let* fs := m_RandGenVec 1 "range proof F" in let* F := mlift (idx fs 0) in
    let* Fs := m_RandGenVec (n * (rp_m + 1)) "range proof Fs" in
    let* Hs := m_RandGenVec (n * (rp_m + 1)) "range proof Hs" in
    let* Gs := m_RandGenVec n "range proof Gs" in
    let* g := p_Bytes G in let* h := p_Bytes H in let* f := p_Bytes F in
    let* gv := derefs Gs in let* hv := derefs Hs in let* fv := derefs Fs in
    mret (MkMRPPP G H F Gs Hs Fs (sha256 C (g ++ h ++ f ++ G1v_Bytes gv ++ G1v_Bytes hv ++ G1v_Bytes fv))).
  (** pol/pol.go:64-101: PPPP and POEPP.PP are the same structure, and the generators of the sum and range arguments are
      pointers to objects of PPPP (94-99). *)
  Definition m_GeneratePublicParams (fanOut : Z) (treeType : TreeType) (α : Zr) : M ((nat -> string -> res path) * mPolPP) :=
    let* '(m, id2Path) := mlift (tree_paths (C:=C) fanOut treeType) in
    let* m := mlift (pad_to_pow2 m) in
    let* poePP := m_poe_NewPublicParams (Z.to_nat ((fanOut + 2) mod 2 ^ 16)) m α in
    let n := Z.to_nat ((fanOut + 1) mod 2 ^ 16) in
    let PPPP := mo_PP poePP in
    let* SAPP := m_sum_NewPublicParams n in
    let* RPPP := m_NewRangeProofPublicParams n in
    let* F := mlift (idx (mp_G1s PPPP) n) in
    let* Gs := mlift (copy_n n (mp_G1s PPPP)) in
    mret (id2Path, MkMpol PPPP (MkMsum (ms_U SAPP) Gs F (ms_H SAPP) (ms_b SAPP) (ms_B SAPP))
      (MkMRPPP (mr_G RPPP) (mr_H RPPP) F Gs (mr_Hs RPPP) (mr_Fs RPPP) (mr_digest RPPP)) poePP (Z.to_nat fanOut)).
  (** The inner-product proofs inside a liability proof *)
  Definition ml_proofs (lp : mLiabilityProof) : list iloc := (mq_Π <$> ml_RangeProofs lp) ++ [mt_π (ml_sum lp); mh_IPP (ml_Eq lp)].
End Mem_pol.
Arguments mPolPP : clear implicits.
