(** Model of bench/main.go: the ids, the population and the averages of the benchmark program. *)
From Verif Require Import Base Model_common Model_paths Model_pol Pol_run.
Local Open Scope Z_scope.

(** bench/main.go:164-171, the ids of the dense benchmark; Go prints a non-negative integer in decimal, which is
    std++'s [pretty]. *)
Definition dense_id (buff : bytes) : string :=
  let n := be_val buff mod (1000 * 1000 * 1000) in
  let n := if n <? 100 * 1000 * 1000 then n + 1000 * 1000 * 100 else n in
  pretty (Z.to_N n).
(** bench/main.go:159-161, the ids of the sparse benchmark *)
Definition sparse_id (buff : bytes) : string := hex_string buff.

(** int and time.Duration hold 64 bits, with wrap-around *)
Definition int64 (z : Z) : Z := (z + 2 ^ 63) mod 2 ^ 64 - 2 ^ 63.
(** bench/main.go:29-35 and 39-45, which differ in the type only; Go's integer division truncates and panics on zero. *)
Definition Avg (s : list Z) : res Z :=
  let sum := fold_left (fun sum x => int64 (sum + x)) s 0 in
  check! negb (length s =? 0)%nat in
  Ret (int64 (Z.quot sum (Z.of_nat (length s)))).

(** bench/main.go:346-364: one batch is 1000 ids drawn in advance, the j-th of which is set to j. *)
Definition batch (genID : bytes -> string) (buffs : list bytes) : list call :=
  imap (fun j buff => CSet (genID buff) (Z.of_nat j)) buffs.
(** bench/main.go:341-368; the randomness is the list of the batches of buffers. *)
Definition populateLiabilitySet (genID : bytes -> string) (batches : list (list bytes)) : list call :=
  mjoin (batch genID <$> batches).
(** bench/main.go:277-287: the measured ids, each set to 666 *)
Definition measured (genID : bytes -> string) (buffs : list bytes) : list call :=
  (fun buff => CSet (genID buff) 666) <$> buffs.

Section Benchmark.
  Context {C : Curve}.
  (** bench/main.go:291-313, one iteration: a proof is produced and verified, and its size in KiB recorded (the durations, which
      are recorded too, are not modelled); a proof not found or rejected is a panic.  W is nil only for paths of length one,
      which GeneratePublicParams does not produce. *)
  Definition measure_proof (pp : PolPP C) (id2path : string -> res path) (ls : LSet) (V : G1 C) (W : option (G1 C)) (id : string) (co : ProofCoins) : res Z :=
    let! o := ProveLiability pp id2path co ls id in
    match o, W with
    | Some (_, lp), Some W =>
      let! err := LiabilityProof_Verify lp pp id V W id2path in
      match err with nil_error => Ret (Z.of_nat (LiabilityProof_Size lp) / 1024) | Err _ => Panic end
    | _, _ => Panic
    end.
  (** bench/main.go:320-339; one pair of durations per iteration; the averages are printed. *)
  Definition benchmarkVerifyTot (pp : PolPP C) (ls : LSet) (V : G1 C) (times : list (Z * Z)) : res (Z * Z) :=
    let! times := mapM (fun t =>
      let! tp := ProveTot pp ls in
      let! err := TotalProof_Verify tp pp V in
      match err with nil_error => Ret t | Err _ => Panic end) times in
    let! proveTot := Avg (fst <$> times) in
    let! verifyTot := Avg (snd <$> times) in
    Ret (proveTot, verifyTot).
  (** bench/main.go:258-318: the sizes of the proofs, and the averages of the proofs of the total.  The error returned is
      always nil, so that retryUntilSuccess (249-256) calls this once.  One element of [runs] is what an iteration draws: the
      buffer of the id, the coins of the proof, and two durations.  Without any Set there is no root; then there are no
      iterations either, and the first average panics. *)
  Definition benchmarkFanout (fanOut : Z) (treeType : TreeType) (α : Zr) (fuel : nat) (rnd : nat -> Zr) (order : nat -> bool -> gmap nat Zr -> list (nat * Zr))
      (genID : bytes -> string) (batches : list (list bytes)) (runs : list (bytes * ProofCoins * (Z * Z))) : res (list Z * (Z * Z)) :=
    let! '(g, pp) := GeneratePublicParams (C:=C) fanOut treeType α in
    let! ls := do_calls pp rnd order (g fuel) (NewLiabilitySet ∅) (populateLiabilitySet genID batches ++ measured genID (fst ∘ fst <$> runs)) in
    let! '(ls, root) := Root (C:=C) ls in
    match root with
    | None => Panic
    | Some (V, W) =>
      let! proofSize := mapM (fun run => measure_proof pp (g fuel) ls V W (genID (fst (fst run))) (snd (fst run))) runs in
      let! tot := benchmarkVerifyTot pp ls V (snd <$> runs) in
      Ret (proofSize, tot)
    end.
End Benchmark.
