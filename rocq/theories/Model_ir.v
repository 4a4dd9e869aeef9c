(** Model of /repo/bp/ir.go (iterated reduction of a committed vector to one scalar). *)
From Verif Require Export Ipa_facts.
Local Open Scope Zr_scope.

Section IR.
  Context {C : Curve}.

  (** bp/ir.go:91-95 *)
  Definition invertZr (x : Zr) : Zr := zinv x.
  (** bp/ir.go:97-103 *)
  Definition appendVToChallenge (x : bytes) (V : G1 C) : bytes := sha256 C (x ++ enc1 C V).

  (** bp/ir.go:25-51.  n is the loop variable; every iteration consumes one triple of Δ.  The result is
      (xs, vFinal) on success and the error message otherwise.  [finalV] is nil until the first round. *)
  Fixpoint iv_loop (pp : bpPP C) (Δ : list (G1 C * G1 C * G1 C)) (n : nat) (G : list (G1 C)) (prevV : G1 C)
      (xs : list Zr) (finalV : option (G1 C)) (vFinal : Zr) {struct Δ} : res (list Zr * Zr + string) :=
    match n with
    | O =>
      let! G0 := idx G 0 in
      match finalV with
      | None => Panic
      | Some fV => if geqb (gmul vFinal G0) fV then Ret (inl (xs, vFinal)) else Ret (inr "final equation check failed"%string)
      end
    | S _ =>
      match Δ with
      | [] => Panic
      | (A, B, V) :: Δ =>
        let! x := FieldElementFromBytes (appendVToChallenge (randomOracle A B (bp_Digest pp)) prevV) in
        let Ax := gmul x A in
        let Bx := gmul (invertZr x) B in
        let shouldBeV := gadd (gadd Ax Bx) prevV in
        if geqb V shouldBeV then
          let! GL := slice_to n G in let! GR := slice_from n G in
          let! G' := G1v_Add GL (G1v_Mul GR (invertZr x)) in
          iv_loop pp Δ (n / 2) G' V (xs ++ [x]) (Some V) vFinal
        else Ret (inr "V != A^xB^{x^{-1}}V"%string)
      end
    end.
  (** bp/ir.go:11-55 *)
  Definition IterativeVerify (pp : bpPP C) (prevV : G1 C) (Δ : list (G1 C * G1 C * G1 C)) (vFinal : Zr)
    : res (list Zr * Zr + string) :=
    let n := length (bp_G pp) in
    let! p2 := IsPowerOfTwo (uint16 n) in
    check! p2 in
    iv_loop pp Δ (n / 2) (bp_G pp) prevV [] None vFinal.

  (** bp/ir.go:69-81; fuel: n halves in every iteration. *)
  Fixpoint ir_loop (fuel : nat) (pp : bpPP C) (n : nat) (G : list (G1 C)) (v : list Zr) (V : G1 C)
      (Δ : list (G1 C * G1 C * G1 C)) (xs : list Zr) : res (list (G1 C * G1 C * G1 C) * list Zr * list Zr) :=
    match n, fuel with
    | O, _ => Ret (Δ, xs, v)
    | _, O => Hang
    | _, S fuel =>
      let! GL := slice_to n G in let! GR := slice_from n G in
      let! vL := slice_to n v in let! vR := slice_from n v in
      let! A := rbind (G1v_MulV GL vR) G1v_Sum in
      let! B := rbind (G1v_MulV GR vL) G1v_Sum in
      let! x := FieldElementFromBytes (appendVToChallenge (randomOracle A B (bp_Digest pp)) V) in
      let! G' := G1v_Add GL (G1v_Mul GR (invertZr x)) in
      let! v' := Vec_Add vL (Vec_Mul vR x) in
      let! V' := rbind (G1v_MulV G' v') G1v_Sum in
      ir_loop fuel pp (n / 2) G' v' V' (Δ ++ [(A, B, V')]) (xs ++ [x])
    end.
  (** bp/ir.go:57-89 *)
  Definition IterativeReduce (pp : bpPP C) (v : list Zr) (V : G1 C)
    : res (list (G1 C * G1 C * G1 C) * list Zr * Zr) :=
    let n := length (bp_G pp) in
    let! p2 := IsPowerOfTwo (uint16 n) in
    check! p2 in
    let! '(Δ, xs, v) := ir_loop n pp (n / 2) (bp_G pp) v V [] [] in
    check! (length v =? 1)%nat in
    let! v0 := idx v 0 in
    Ret (Δ, xs, v0).
End IR.
