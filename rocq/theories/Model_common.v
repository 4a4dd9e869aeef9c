(** Model of /repo/common/math.go.  One definition per Go function; slices are lists, uint8 bits are
    [Z], *big.Int is [Z].  Element-wise loops are written with [zip_with]/[fmap], accumulating loops
    with [fold_left].  Pointers are values: the Go functions modelled here copy before mutating.
    Not modelled: RandVec (101-113) (randomness is passed as an argument), Zero (115-120), and the
    mathlib/gnark internals. *)
From Verif Require Export Spec.
Local Open Scope Zr_scope.

(** Zr.Bytes() (mathlib): 32 bytes big endian. *)
Definition Zr_Bytes (x : Zr) : bytes := be_bytes 32 (zv x).

(** common/math.go:34-36 *)
Definition Pow2 (n : nat) : Zr := zr 2 ^ n.
(** common/math.go:38-40 (NewZrFromInt; negative arguments are reduced modulo r) *)
Definition IntToZr (n : Z) : Zr := zr n.
(** common/math.go:42-48 *)
Definition IntsToZr (ns : list Z) : list Zr := zr <$> ns.
(** common/math.go:50-58 *)
Fixpoint power_series_loop (k : nat) (next exp : Zr) : list Zr :=
  match k with O => [] | S k => next :: power_series_loop k (next * exp) exp end.
Definition PowerSeries (n : nat) (exp : Zr) : list Zr := power_series_loop n (zr 1) exp.
(** common/math.go:60-67 *)
Definition ReverseBits (bits : list Z) : list Z := reverse bits.
(** common/math.go:73-87.  The loop [for N.Sign() != 0] runs on fuel; 256 suffices (see
    [Bits_never_hangs]). *)
Fixpoint bits_loop (fuel : nat) (N : Z) : res (list Z) :=
  match fuel with
  | O => Hang
  | S fuel =>
    if (N =? 0)%Z then Ret []
    else let! rest := bits_loop fuel (Z.shiftr N 1) in Ret (Z.land N 1 :: rest)
  end.
Definition Bits (n : Zr) (bitLen : nat) : res (list Z) :=
  let N := be_val (Zr_Bytes n) in
  let! res := bits_loop 256 N in
  Ret (res ++ replicate (bitLen - length res) 0%Z).
(** common/math.go:69-71 *)
Definition BitsBigEndian (n : Zr) (bitLen : nat) : res (list Z) :=
  let! b := Bits n bitLen in Ret (ReverseBits b).

(** common/math.go:130-135 *)
Definition Vec_Concat (v v2 : list Zr) : list Zr := v ++ v2.
(** common/math.go:137-143 *)
Fixpoint Vec_Bits (v : list Zr) (bitLen : nat) : res (list Z) :=
  match v with
  | [] => Ret []
  | x :: v => let! b := Bits x bitLen in let! bs := Vec_Bits v bitLen in Ret (b ++ bs)
  end.
(** common/math.go:145-153 *)
Definition Vec_Reverse (v : list Zr) : list Zr := reverse v.
(** common/math.go:155-168; panics if exp is shorter than v. *)
Definition Vec_PowBitVec (v : list Zr) (exp : list Z) : res (list Zr) :=
  check! (length v <=? length exp)%nat in
  Ret (zip_with (fun x e => if (e =? 0)%Z then zr 1 else x) v exp).
(** common/math.go:170-176; panics on the empty vector. *)
Definition Vec_Product (v : list Zr) : res Zr :=
  match v with [] => Panic | x :: v => Ret (fold_left zmul v x) end.
(** common/math.go:178-189 *)
Definition Vec_Add (v v2 : list Zr) : res (list Zr) :=
  check! (length v =? length v2)%nat in Ret (zip_with zadd v v2).
(** common/math.go:290-293 *)
Definition NegZr (x : Zr) : Zr := zr 0 - x.
(** common/math.go:191-202 *)
Definition Vec_Sub (v v2 : list Zr) : res (list Zr) :=
  check! (length v =? length v2)%nat in Ret (zip_with (fun x y => x + NegZr y) v v2).
(** common/math.go:204-218 *)
Fixpoint evens_loop (v : list Zr) : list Zr :=
  match v with x :: _ :: v => x :: evens_loop v | _ => [] end.
Definition Vec_Evens (v : list Zr) : res (list Zr) :=
  check! (Nat.even (length v)) in Ret (evens_loop v).
(** common/math.go:220-234 *)
Fixpoint odds_loop (v : list Zr) : list Zr :=
  match v with _ :: y :: v => y :: odds_loop v | _ => [] end.
Definition Vec_Odds (v : list Zr) : res (list Zr) :=
  check! (Nat.even (length v)) in Ret (odds_loop v).
(** common/math.go:236-242 *)
Definition Vec_Mul (v : list Zr) (x : Zr) : list Zr := (fun y => y * x) <$> v.
(** common/math.go:255-266 *)
Definition Vec_InnerProd (v v2 : list Zr) : res Zr :=
  check! (length v =? length v2)%nat in
  Ret (fold_left (fun sum xy => sum + fst xy * snd xy) (zip v v2) (zr 0)).
(** common/math.go:268-279 *)
Definition Vec_HadamardProd (v v2 : list Zr) : res (list Zr) :=
  check! (length v =? length v2)%nat in Ret (zip_with zmul v v2).

Section Curve.
  Context {C : Curve}.
  Local Notation G1v := (list (G1 C)).
  Local Notation G2v := (list (G2 C)).

  (** common/math.go:456-461 *)
  Definition SHA256Digest (bs : bytes) : bytes := sha256 C bs.
  (** common/math.go:463-465 *)
  Definition HashToG1 (bs : bytes) : G1 C := hash_to_g1 C bs.

  (** fmt.Sprintf("PoL %s %d", context, i) (common/math.go:93) *)
  Definition gen_preimage (context : string) (i : nat) : bytes :=
    string_bytes ("PoL " +:+ context +:+ " " +:+ pretty (N.of_nat i)).
  (** common/math.go:92-96, body of the loop *)
  Definition rand_gen (context : string) (i : nat) : G1 C :=
    let randBytes := SHA256Digest (gen_preimage context i) in
    HashToG1 (randBytes ++ SHA256Digest randBytes).
  (** common/math.go:89-99 *)
  Definition RandGenVec (n : nat) (context : string) : G1v := rand_gen context <$> seq 0 n.

  (** common/math.go:244-253; panics on length mismatch and on empty vectors. *)
  Definition Vec_Exp (v : list Zr) (g : G1v) : res (G1 C) :=
    check! (length v =? length g)%nat in
    match zip v g with
    | [] => Panic
    | (x, P) :: l => Ret (fold_left (fun acc xP => gadd acc (gmul (fst xP) (snd xP))) l (gmul x P))
    end.
  (** common/math.go:281-288; only the length of the receiver counts, panics if the argument is
      shorter. *)
  Definition G1v_Add (a b : G1v) : res G1v :=
    check! (length a <=? length b)%nat in Ret (zip_with gadd a b).
  (** common/math.go:308-315 (same code as Add) *)
  Definition G1v_HadamardProd (a b : G1v) : res G1v :=
    check! (length a <=? length b)%nat in Ret (zip_with gadd a b).
  (** common/math.go:295-306 *)
  Definition G1v_Neg (a : G1v) : G1v := (fun P => gadd gzero (gopp P)) <$> a.
  (** common/math.go:317-323 *)
  Definition G1v_Mul (a : G1v) (x : Zr) : G1v := gmul x <$> a.
  (** common/math.go:325-340 *)
  Definition G1v_MulV (a : G1v) (v : list Zr) : res G1v :=
    check! (length a =? length v)%nat in
    Ret (zip_with (fun P x => if zeqb x (zr 0) then gzero else gmul x P) a v).
  (** common/math.go:342-351; panics on the empty vector, skips points at infinity. *)
  Definition G1v_Sum (a : G1v) : res (G1 C) :=
    match a with
    | [] => Panic
    | P :: a => Ret (fold_left (fun acc Q => if geqb Q gzero then acc else gadd acc Q) a P)
    end.
  (** common/math.go:353-359 *)
  Definition G1v_Bytes (a : G1v) : bytes := concat (enc1 C <$> a).
  (** common/math.go:361-371 *)
  Definition G1v_Duplicate (a : G1v) (n : nat) : res G1v :=
    match a with [P] => Ret (replicate n P) | _ => Panic end.
  (** common/math.go:373-379; panics if the scalars are fewer. *)
  Definition G2v_Mulv (a : G2v) (x : list Zr) : res G2v :=
    check! (length a <=? length x)%nat in Ret (zip_with (fun P x => gmul x P) a x).
  (** common/math.go:381-391 *)
  Definition G2v_Duplicate (a : G2v) (n : nat) : res G2v :=
    match a with [P] => Ret (replicate n P) | _ => Panic end.
  (** common/math.go:393-400 *)
  Definition G2v_Add (a b : G2v) : res G2v :=
    check! (length a <=? length b)%nat in Ret (zip_with gadd a b).
  (** common/math.go:402-408 *)
  Definition G2v_Mul (a : G2v) (x : Zr) : G2v := gmul x <$> a.
  (** common/math.go:410-416 *)
  Definition G2v_Bytes (a : G2v) : bytes := concat (enc2 C <$> a).
  (** common/math.go:418-424 *)
  Definition G2v_Sum (a : G2v) : res (G2 C) :=
    match a with [] => Panic | P :: a => Ret (fold_left gadd a P) end.
  (** common/math.go:426-454.  The final exponentiation is folded into [pair] (it is a group
      homomorphism); Gt is written additively. *)
  Definition G1v_InnerProd (a : G1v) (b : G2v) : res (GT C) :=
    check! (length a =? length b)%nat in
    match zip a b with
    | [] => Panic
    | (P, Q) :: l => Ret (fold_left (fun acc PQ => gadd acc (pair C (fst PQ) (snd PQ))) l (pair C P Q))
    end.
End Curve.

(** Limbs of a gnark fr.Element, least significant first. *)
Record limbs : Type := Limbs { l0 : Z; l1 : Z; l2 : Z; l3 : Z }.
Definition q0 : Z := 4891460686036598785.
Definition q1 : Z := 2896914383306846353.
Definition q2 : Z := 13281191951274694749.
Definition q3 : Z := 3486998266802970665.
(** bits.Sub64 *)
Definition sub64 (x y b : Z) : Z * Z :=
  ((x - y - b) mod 2 ^ 64, if x <? y + b then 1 else 0)%Z.

(** common/math.go:474-496 *)
Definition feFrom256Bits (bs : bytes) : res limbs :=
  check! (length bs =? 32)%nat in
  let z0 := be_val (take 8 bs) in
  let z1 := be_val (take 8 (drop 8 bs)) in
  let z2 := be_val (take 8 (drop 16 bs)) in
  let z3 := (be_val (take 8 (drop 24 bs)) mod q3)%Z in
  if negb ((z3 <? q3) || ((z3 =? q3) && ((z2 <? q2) || ((z2 =? q2) && ((z1 <? q1) || ((z1 =? q1) && (z0 <? q0)))))))%Z
  then
    let '(z0, b) := sub64 z0 q0 0 in
    let '(z1, b) := sub64 z1 q1 b in
    let '(z2, b) := sub64 z2 q2 b in
    let '(z3, _) := sub64 z3 q3 b in
    Ret (Limbs z0 z1 z2 z3)
  else Ret (Limbs z0 z1 z2 z3).

(** Integer held by the limbs. *)
Definition limbs_val (z : limbs) : Z :=
  (l0 z + 2 ^ 64 * l1 z + 2 ^ 128 * l2 z + 2 ^ 192 * l3 z)%Z.
(** gnark fr.Element.ToBigIntRegular: Montgomery form to integer, x ↦ x·2^-256 mod r. *)
Definition ToBigIntRegular (z : limbs) : Z := zv (zr (limbs_val z) / zr (2 ^ 256)).
(** common/math.go:467-472 *)
Definition FieldElementFromBytes (digest : bytes) : res Zr :=
  let! fe := feFrom256Bits digest in
  let n := ToBigIntRegular fe in
  Ret (zr (be_val (be_bytes 32 n))).

(** common/math.go:498-513 on a uint16; the unbounded loop runs on fuel. *)
Fixpoint is_pow2_loop (fuel : nat) (n : Z) : res bool :=
  match fuel with
  | O => Hang
  | S fuel =>
    let lsb := Z.land n 1 in
    let n := Z.shiftr n 1 in
    if ((n =? 0) && (lsb =? 1))%Z then Ret true
    else if (lsb =? 1)%Z then Ret false
    else is_pow2_loop fuel n
  end.
Definition IsPowerOfTwo_fuel (fuel : nat) (n : Z) : res bool :=
  if (n =? 1)%Z then Ret false else is_pow2_loop fuel n.
(** The run used by callers: 17 iterations are enough for every non-zero uint16, and for 0 the loop
    never ends (see [IsPowerOfTwo_spec]). *)
Definition IsPowerOfTwo (n : Z) : res bool := IsPowerOfTwo_fuel 17 n.
(** uint16(n) conversion of a non-negative int *)
Definition uint16 (n : nat) : Z := (Z.of_nat n mod 2 ^ 16)%Z.
