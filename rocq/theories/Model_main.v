(** Model of the rest of bench/main.go: the environment variables, the measurement of the parameters, and the report. *)
From Verif Require Import Base Model_common Model_paths Model_pol Pol_run.
From Verif Require Export Model_bench.
Local Open Scope Z_scope.

(** bench/main.go:17-25 *)
Definition totalPopulation : Z := 1000.
Definition fanouts : list Z := [3; 7; 15; 31; 63; 127; 255; 511].

(** bench/main.go:398-412; [ParseInt32] is strconv.ParseInt(s, 10, 32) (Model_paths.v). *)
Definition getIterations (ITERATIONS : string) : res Z :=
  if String.eqb ITERATIONS "" then Ret 10 else match ParseInt32 ITERATIONS with Some n => Ret n | None => Panic end.
(** bench/main.go:203-223; None: the program exits with code 2. *)
Definition setTreeType (TREETYPE : string) : option TreeType :=
  if String.eqb TREETYPE "" then Some Sparse else if String.eqb TREETYPE "SPARSE" then Some Sparse else if String.eqb TREETYPE "DENSE" then Some Dense else None.
(** bench/main.go:225-238: the value of pol.ParallelismEnabled; None: the program exits with code 2. *)
Definition setParallelism (PARALLELISM : string) : option bool :=
  if String.eqb PARALLELISM "0" then Some false else if String.eqb PARALLELISM "1" || String.eqb PARALLELISM "" then Some true else None.

(** bench/main.go:121-132; durations are in nanoseconds.  constTime is not reported. *)
Record measurement : Type := MkMeasurement {
  ms_ppGenTime : list Z; ms_proofTime : list Z; ms_verifyTime : list Z; ms_equalityTimeProve : list Z; ms_sumTimeProve : list Z;
  ms_equalityTimeVerify : list Z; ms_sumTimeVerify : list Z; ms_ppSize : list Z; ms_proofSize : list Z }.
(** Duration.Milliseconds of the Go library *)
Definition Milliseconds (d : Z) : Z := Z.quot d 1000000.
(** bench/main.go:49-119, which differ in the field: "(%d, %d)" for every fanout *)
Definition series (field : measurement -> res Z) (m : list (Z * measurement)) : res string :=
  let! l := mapM (fun fm => let! a := field (snd fm) in Ret ("(" +:+ pretty (fst fm) +:+ ", " +:+ pretty a +:+ ")")%string) m in
  Ret (foldr String.append ""%string l).
Definition avg_time (field : measurement -> list Z) (m : measurement) : res Z := let! d := Avg (field m) in Ret (Milliseconds d).

Section Main.
  Context {C : Curve}.
  (** What the benchmark of one fanout draws and measures: see benchmarkFanout; the buffers of the population; and per iteration
      the durations of the proof, its equality and sum parts, of the verification, its equality and sum parts. *)
  Record Fan : Type := MkFan {
    fn_α : Zr; fn_fuel : nat; fn_rnd : nat -> Zr; fn_order : nat -> bool -> gmap nat Zr -> list (nat * Zr);
    fn_pop : nat -> nat -> bytes; fn_run : nat -> bytes * ProofCoins * (Z * Z);
    fn_proofTime : nat -> Z; fn_equalityTimeProve : nat -> Z; fn_sumTimeProve : nat -> Z;
    fn_verifyTime : nat -> Z; fn_equalityTimeVerify : nat -> Z; fn_sumTimeVerify : nat -> Z }.

  (** bench/main.go:341-346: population/1000 batches of 1000 *)
  Definition population_of (population : Z) (pop : nat -> nat -> bytes) : list (list bytes) :=
    (fun i => pop i <$> seq 0 1000) <$> seq 0 (Z.to_nat (Z.quot population 1000)).
  (** bench/main.go:370-396, one tree type; [gen f i] is the trapdoor drawn and the duration of the i-th generation. *)
  Definition measurePPGen (iterations : Z) (treeType : TreeType) (gen : Z -> nat -> Zr * Z) : res (list (Z * measurement)) :=
    mapM (fun fanOut =>
      let! sizes := mapM (fun i => let! '(_, pp) := GeneratePublicParams (C:=C) fanOut treeType (fst (gen fanOut i)) in Ret (Z.quot (PolPP_Size pp) 1024)) (seq 0 (Z.to_nat iterations)) in
      Ret (fanOut, MkMeasurement ((fun i => snd (gen fanOut i)) <$> seq 0 (Z.to_nat iterations)) [] [] [] [] [] [] sizes [])) fanouts.
  (** bench/main.go:242-256 (with 258-318 for the measurements).  A negative number of iterations panics at line 275 after the population, in the model at
      the first average. *)
  Definition measureConstructProofVerify (iterations : Z) (m : list (Z * measurement)) (population : Z) (treeType : TreeType) (genID : bytes -> string) (fan : Z -> Fan) : res (list (Z * measurement)) :=
    mapM (fun fm =>
      let fanOut := fst fm in let fn := fan fanOut in let its := seq 0 (Z.to_nat iterations) in
      let! '(sizes, _) := benchmarkFanout (C:=C) fanOut treeType (fn_α fn) (fn_fuel fn) (fn_rnd fn) (fn_order fn) genID (population_of population (fn_pop fn)) (fn_run fn <$> its) in
      Ret (fanOut, MkMeasurement (ms_ppGenTime (snd fm)) (fn_proofTime fn <$> its) (fn_verifyTime fn <$> its) (fn_equalityTimeProve fn <$> its) (fn_sumTimeProve fn <$> its)
        (fn_equalityTimeVerify fn <$> its) (fn_sumTimeVerify fn <$> its) (ms_ppSize (snd fm)) sizes)) m.
  (** bench/main.go:178-200 *)
  Definition report (m : list (Z * measurement)) : res (list (string * string)) :=
    let! ppSizes := series (fun m => Avg (ms_ppSize m)) m in
    let! proofSizes := series (fun m => Avg (ms_proofSize m)) m in
    let! ppGenTime := series (avg_time ms_ppGenTime) m in
    let! proveTime := series (avg_time ms_proofTime) m in
    let! verifyTime := series (avg_time ms_verifyTime) m in
    let! proveEqualityTime := series (avg_time ms_equalityTimeProve) m in
    let! proveSumTime := series (avg_time ms_sumTimeProve) m in
    let! verifyEqTime := series (avg_time ms_equalityTimeVerify) m in
    let! verifySumTime := series (avg_time ms_sumTimeVerify) m in
    Ret [("PP sizes:", ppSizes); ("Proof sizes:", proofSizes); ("PP gen times:", ppGenTime); ("proof times:", proveTime); ("verify times:", verifyTime);
         ("equality proof times:", proveEqualityTime); ("sum proof times:", proveSumTime); ("verify equality times:", verifyEqTime); ("verify sum times:", verifySumTime)]%string.
  (** bench/main.go:140-201: the lines of the report; None: exit code 2.  The other output is not modelled; pol.ParallelismEnabled does not change
      what the verifiers and provers return (Model_conc.v). *)
  Definition main (PARALLELISM ITERATIONS TREETYPE : string) (gen : TreeType -> Z -> nat -> Zr * Z) (fan : Z -> Fan) : res (option (list (string * string))) :=
    match setParallelism PARALLELISM with
    | None => Ret None
    | Some _ =>
      let! iterations := getIterations ITERATIONS in
      let! dense := measurePPGen iterations Dense (gen Dense) in
      let! sparse := measurePPGen iterations Sparse (gen Sparse) in
      match setTreeType TREETYPE with
      | None => Ret None
      | Some treeType =>
        let idGen := match treeType with Sparse => sparse_id | Dense => dense_id end in
        let! m := measureConstructProofVerify iterations (match treeType with Sparse => sparse | Dense => dense end) totalPopulation treeType idGen fan in
        let! lines := report m in
        Ret (Some lines)
      end
    end.
End Main.
