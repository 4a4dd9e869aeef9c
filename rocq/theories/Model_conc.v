(** Model of the goroutines of /repo/pol/pol.go: LiabilityProof.Verify and ProveLiability with ParallelismEnabled (the default,
    pol/pol.go:31).

    A program is a main thread that starts goroutines.  Threads run library calls, which touch no shared memory, and atomic
    actions on the shared memory.  One step of an execution is one step of one thread; which one is arbitrary.

    What the library calls share is read-only: the public parameters (the digest of the range-proof parameters is cached when
    they are made, bp/range.go:29,38-53) and the vertices.  bp.VerifyRange writes into the range proof it is given
    (bp/range.go:136-137); the range proofs of a liability proof are distinct objects (that these calls overwrite nothing else is C91).  atomic.Value.Store panics on values of
    different types; all errors of bp.VerifyRange are made by fmt.Errorf without %w and have one type. *)
From Verif Require Export Model_pol.
Local Open Scope Zr_scope.

(** What an attempt to take a step does: nothing (the thread is blocked, has ended, or is in a call that does not return), a
    panic, which ends the process, or a step. *)
Inductive attempt (A : Type) : Type := Blocked | Crash | Next (a : A).
Arguments Blocked {A}.
Arguments Crash {A}.
Arguments Next {A} a.

Section Threads.
  (** Shared memory and result of the main thread *)
  Context {M R : Type}.

  Inductive goroutine : Type :=
  | GCall {A} (c : res A) (k : A -> goroutine)
  | GAct (a : M -> attempt M) (k : goroutine)
  | GEnd.
  Inductive main : Type :=
  | MCall {A} (c : res A) (k : A -> main)
  | MGo (g : goroutine) (k : main)
  | MAct (a : M -> attempt M) (k : main)
  | MRead {A} (f : M -> A) (k : A -> main)
  | MReturn (r : R).

  Definition gor_step (g : goroutine) (m : M) : attempt (goroutine * M) :=
    match g with
    | GCall c k => match c with Ret a => Next (k a, m) | Panic => Crash | Hang => Blocked end
    | GAct a k => match a m with Next m' => Next (k, m') | Crash => Crash | Blocked => Blocked end
    | GEnd => Blocked
    end.
  Definition main_step (t : main) (gs : list goroutine) (m : M) : attempt (main * list goroutine * M) :=
    match t with
    | MCall c k => match c with Ret a => Next (k a, gs, m) | Panic => Crash | Hang => Blocked end
    | MGo g k => Next (k, gs ++ [g], m)
    | MAct a k => match a m with Next m' => Next (k, gs, m') | Crash => Crash | Blocked => Blocked end
    | MRead f k => Next (k (f m), gs, m)
    | MReturn _ => Blocked
    end.

  (** The process: the main thread, the goroutines started so far and the memory; or crashed *)
  Inductive process : Type :=
  | Run (t : main) (gs : list goroutine) (m : M)
  | Crashed.
  Inductive step : process -> process -> Prop :=
  | step_main t gs m t' gs' m' : main_step t gs m = Next (t', gs', m') -> step (Run t gs m) (Run t' gs' m')
  | step_main_crash t gs m : main_step t gs m = Crash -> step (Run t gs m) Crashed
  | step_gor t gs m i g g' m' : gs !! i = Some g -> gor_step g m = Next (g', m') -> step (Run t gs m) (Run t (<[i := g']> gs) m')
  | step_gor_crash t gs m i g : gs !! i = Some g -> gor_step g m = Crash -> step (Run t gs m) Crashed.

  (** The main thread has returned r.  Goroutines may still be running. *)
  Definition returned (c : process) (r : R) : Prop := exists gs m, c = Run (MReturn r) gs m.
  (** Some thread is in a library call that does not return. *)
  Definition gor_hangs (g : goroutine) : bool := match g with GCall Hang _ => true | _ => false end.
  Definition main_hangs (t : main) : bool := match t with MCall Hang _ => true | _ => false end.
  Definition hangs (c : process) : Prop :=
    match c with Run t gs _ => main_hangs t = true \/ Exists (fun g => gor_hangs g = true) gs | Crashed => False end.

  (** ** Without goroutines *)
  (** What the same program does when each goroutine is run to its end where it is started (ParallelismEnabled = false).  An
      action that is blocked then stays blocked. *)
  Fixpoint gor_inline (g : goroutine) (m : M) : res M :=
    match g with
    | GCall c k => rbind c (fun a => gor_inline (k a) m)
    | GAct a k => match a m with Next m' => gor_inline k m' | Crash => Panic | Blocked => Hang end
    | GEnd => Ret m
    end.
  Fixpoint inline (t : main) (m : M) : res R :=
    match t with
    | MCall c k => rbind c (fun a => inline (k a) m)
    | MGo g k => rbind (gor_inline g m) (fun m' => inline k m')
    | MAct a k => match a m with Next m' => inline k m' | Crash => Panic | Blocked => Hang end
    | MRead f k => inline (k (f m)) m
    | MReturn r => Ret r
    end.
End Threads.
Arguments goroutine : clear implicits.
Arguments main : clear implicits.
Arguments process : clear implicits.

Section Programs.
  Context {C : Curve}.

  (** ** LiabilityProof.Verify *)
  (** rangeProofsVerification and detectedRangeProofErr (pol/pol.go:139-142) *)
  Record VMem : Type := MkVM { vm_wg : Z; vm_err : error }.
  (** sync.WaitGroup *)
  Definition v_add (n : Z) (m : VMem) : attempt VMem := Next (MkVM (vm_wg m + n) (vm_err m)).
  Definition v_done (m : VMem) : attempt VMem := if (vm_wg m <=? 0)%Z then Crash else Next (MkVM (vm_wg m - 1) (vm_err m)).
  Definition v_wait (m : VMem) : attempt VMem := if (vm_wg m =? 0)%Z then Next m else Blocked.
  (** atomic.Value *)
  Definition v_store (e : error) (m : VMem) : attempt VMem := Next (MkVM (vm_wg m) e).
  (** pol/pol.go:162-167 *)
  Definition verifyRangeProof (pp : PolPP C) (rp : RangeProof C) (V : G1 C) : goroutine VMem :=
    GCall (VerifyRange (po_RPPP pp) rp V) (fun e => match e with
      | Err _ => GAct (v_store e) (GAct v_done GEnd)
      | nil_error => GAct v_done GEnd end).
  (** pol/pol.go:195-232 *)
  Definition par_tail (pp : PolPP C) (lp : LiabilityProof C) (path : path) : main VMem error :=
    MCall (verify_arguments pp lp path) (fun e => match e with Err _ => MReturn e | nil_error =>
    MAct v_wait (MRead vm_err (fun stored => match stored with Err _ => MReturn stored | nil_error =>
    MCall (verify_liability pp lp path) MReturn end)) end).
  (** pol/pol.go:153-193, then the rest *)
  Fixpoint par_loop (pp : PolPP C) (lp : LiabilityProof C) (path : path) (is : list nat) : main VMem error :=
    match is with
    | [] => par_tail pp lp path
    | i :: is => MCall (verify_args lp path i) (fun '(rp, V) => MGo (verifyRangeProof pp rp V)
                 (MCall (verify_digest lp path i) (fun e => match e with Err _ => MReturn e | nil_error => par_loop pp lp path is end)))
    end.
  (** pol/pol.go:124-233 *)
  Definition par_Verify (lp : LiabilityProof C) (pp : PolPP C) (id : string) (V W : G1 C) (id2path : string -> res path) : main VMem error :=
    MCall (id2path id) (fun path => MCall (verify_header lp path V W) (fun e => match e with Err _ => MReturn e | nil_error =>
    MAct (v_add (Z.of_nat (length path))) (par_loop pp lp path (seq 0 (length path))) end)).
  Definition Verify_process (lp : LiabilityProof C) (pp : PolPP C) (id : string) (V W : G1 C) (id2path : string -> res path) : process VMem error :=
    Run (par_Verify lp pp id V W id2path) [] (MkVM 0 nil_error).

  (** ** ProveLiability *)
  (** rangeProofProduction, lock and proof.RangeProofs (pol/pol.go:345-350); None is a nil pointer. *)
  Record PMem : Type := MkPM { pm_wg : Z; pm_lock : bool; pm_slots : list (option (RangeProof C)) }.
  Definition p_start (n : nat) (m : PMem) : attempt PMem := Next (MkPM (pm_wg m + Z.of_nat n) (pm_lock m) (replicate n None)).
  Definition p_done (m : PMem) : attempt PMem := if (pm_wg m <=? 0)%Z then Crash else Next (MkPM (pm_wg m - 1) (pm_lock m) (pm_slots m)).
  Definition p_wait (m : PMem) : attempt PMem := if (pm_wg m =? 0)%Z then Next m else Blocked.
  (** sync.Mutex *)
  Definition p_lock (m : PMem) : attempt PMem := if pm_lock m then Blocked else Next (MkPM (pm_wg m) true (pm_slots m)).
  Definition p_unlock (m : PMem) : attempt PMem := if pm_lock m then Next (MkPM (pm_wg m) false (pm_slots m)) else Crash.
  (** proof.RangeProofs[i] = rp *)
  Definition p_write (i : nat) (rp : RangeProof C) (m : PMem) : attempt PMem :=
    if (i <? length (pm_slots m))%nat then Next (MkPM (pm_wg m) (pm_lock m) (<[i := Some rp]> (pm_slots m))) else Crash.

  Section Prove.
    Variable (pp : PolPP C) (id2path : string -> res path) (co : ProofCoins).
    (** pol/pol.go:392-398 *)
    Definition createRangeProof (i : nat) (v : Vertex C) : goroutine PMem :=
      GCall (prove_range_of pp co v i) (fun rp => GAct p_lock (GAct (p_write i rp) (GAct p_unlock (GAct p_done GEnd)))).
    (** What an iteration of the loop reads before it starts its goroutine (pol/pol.go:365, 378-390): the vertex and, except
        in the last iteration, the next one *)
    Definition prove_reads (path : path) (along : list (Vertex C)) (i : nat) : res (Vertex C) :=
      let! v := idx along i in
      if (i <? length path - 1)%nat then let! _ := idx along (i + 1) in Ret v else Ret v.
    (** pol/pol.go:406-413: the W of the vertex, the digest and its opening *)
    Definition prove_opening (path : path) (v : Vertex C) (i : nat) : res (option (G1 C) * Zr * G1 C) :=
      let! pi := idx path i in
      let! '(digest, π) := Open (po_PPPP pp) pi (vertex_digests pp v) in
      Ret (v_W v, digest, π).
    (** pol/pol.go:417-459: the liability and everything in the proof except the range proofs *)
    Definition prove_rest (path : path) (along : list (Vertex C)) (opened : list (option (G1 C) * Zr * G1 C)) :
        res (Z * (list (RangeProof C) -> LiabilityProof C)) :=
      let n := length path in
      let! vertices := slice_to n along in
      let V := v_V <$> vertices in
      let W := omap (fun o : option (G1 C) * Zr * G1 C => fst (fst o)) opened in
      let digestProofs := omap (fun o : option (G1 C) * Zr * G1 C => match fst (fst o) with Some _ => Some (snd o) | None => None end) opened in
      let Digests := (fun o : option (G1 C) * Zr * G1 C => snd (fst o)) <$> opened in
      let! lastVertex := idx vertices (n - 1) in
      let! pl := idx path (n - 1) in
      let! '(l, liabilityProof) := openForClient pp lastVertex pl in
      match Zr_Int l with
      | None => Panic
      | Some liability =>
        let! tPP := mapM (fun i => RO (po_PPPP pp) W i) (seq 0 (n - 1)) in
        let! ds := slice_to (length tPP) Digests in
        let! Σ := Vec_InnerProd ds tPP in
        let! π := Aggregate (po_PPPP pp) W digestProofs RO in
        let! sumArg := SumArgument vertices (po_SAPP pp) (pc_w co) (pc_r' co) in
        let! '(equalities, vEQ, wEQ) := prove_equalities pp path along in
        let! eq := Equalities_Prove equalities vEQ wEQ (pc_eq co) (pc_r1 co) (pc_r2 co) in
        Ret (liability, fun rangeProofs => MkLP Σ π sumArg V W Digests rangeProofs eq (MkTP liabilityProof liability))
      end.
    (** pol/pol.go:417-463: what is returned holds the slice RangeProofs as it is after Wait. *)
    Definition prove_tail (path : path) (along : list (Vertex C)) (opened : list (option (G1 C) * Zr * G1 C)) :
        main PMem (option (Z * (list (RangeProof C) -> LiabilityProof C) * list (option (RangeProof C)))) :=
      MCall (prove_rest path along opened) (fun '(liability, mk) =>
      MAct p_wait (MRead pm_slots (fun slots => MReturn (Some (liability, mk, slots))))).
    (** pol/pol.go:363-415, then the rest *)
    Fixpoint prove_loop (path : path) (along : list (Vertex C)) (opened : list (option (G1 C) * Zr * G1 C)) (is : list nat) :
        main PMem (option (Z * (list (RangeProof C) -> LiabilityProof C) * list (option (RangeProof C)))) :=
      match is with
      | [] => prove_tail path along opened
      | i :: is => MCall (prove_reads path along i) (fun v => MGo (createRangeProof i v)
                   (MCall (prove_opening path v i) (fun o => prove_loop path along (opened ++ [o]) is)))
      end.
    (** pol/pol.go:331-464.  A path without entries makes line 352 panic. *)
    Definition par_ProveLiability (ls : LSet) (id : string) :
        main PMem (option (Z * (list (RangeProof C) -> LiabilityProof C) * list (option (RangeProof C)))) :=
      MCall (id2path id) (fun path => MCall (VGet (C:=C) id2path (ls_tree ls) id) (fun g => match g with
      | None => MReturn None
      | Some (_, along) => MAct (p_start (length path)) (MCall (if (1 <=? length path)%nat then Ret tt else Panic) (fun _ =>
                           prove_loop path along [] (seq 0 (length path)))) end)).
    Definition Prove_process (ls : LSet) (id : string) : process PMem _ := Run (par_ProveLiability ls id) [] (MkPM 0 false []).
  End Prove.
End Programs.
Arguments PMem : clear implicits.
