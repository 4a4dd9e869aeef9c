(** The memory-level functions of bp/range.go compared with those of Model_range. *)
From Verif Require Export Mem_ipa Model_range.
Local Open Scope Zr_scope.

Section Rel.
  Context {C : Curve}.
  (** A pure step does not depend on the memory. *)
  Lemma runs_mlift_at {A B} (m : res A) (r : res B) (hb h : mem C) (R : A -> B -> Prop) :
    runs (mlift m) hb r (fun a h' b => h' = hb /\ R a b) -> runs (mlift m) h r (fun a h' b => h' = h /\ R a b).
  Proof.
    unfold runs, mlift. destruct r as [b| |], m as [a| |]; cbn [rbind]; try (intros; reflexivity || discriminate).
    - intros (a' & h' & E & _ & H). injection E as <- <-. exists a, h. auto.
    - intros (a' & h' & E & _). discriminate.
    - intros (a' & h' & E & _). discriminate.
  Qed.
  (** runs for a function of the pure result *)
  Lemma runs_map {A B D} (m : M C A) h (r : res B) (f : B -> D) Φ :
    runs m h r (fun a h' b => Φ a h' (f b)) -> runs m h (let! b := r in Ret (f b)) Φ.
  Proof. unfold runs. destruct r; cbn; auto. Qed.

  (** The parameters p, as pointers into h, are q. *)
  Definition rel_rppp (h : mem C) (p : mRPPP) (q : RPPP C) : Prop :=
    val h (mr_G p) (rp_G q) /\ val h (mr_H p) (rp_H q) /\ val h (mr_F p) (rp_F q) /\
    vals h (mr_Gs p) (rp_Gs q) /\ vals h (mr_Hs p) (rp_Hs q) /\ vals h (mr_Fs p) (rp_Fs q) /\ mr_digest p = rp_Digest q.
  Lemma rel_rppp_ext S h h' p q : ext S h h' -> rel_rppp h p q -> rel_rppp h' p q.
  Proof. intros E (?&?&?&?&?&?&?). split_and!; try assumption; (eapply val_ext || eapply vals_ext); eassumption. Qed.
  (** The proof p is q, except possibly for the claim (P and C) of its inner-product proof. *)
  Definition rel_rp (h : mem C) (p : mRangeProof) (q : RangeProof C) : Prop :=
    Forall2 (val3 h) (mq_Δ p) (rp_Δ q) /\ mq_u p = rp_u q /\ val h (mq_W p) (rp_W q) /\ mq_γ p = rp_γ q /\
    core h (mq_Π p) (rp_Π q) /\ mq_c p = rp_c q /\ val h (mq_Q p) (rp_Q q) /\ val h (mq_R p) (rp_R q) /\
    val h (mq_C1 p) (rp_C1 q) /\ val h (mq_C2 p) (rp_C2 q) /\ mq_τ p = rp_τ q /\ mq_ρ p = rp_ρ q.
  Lemma rel_rp_ext S h h' p q : ext S h h' -> rel_rp h p q -> rel_rp h' p q.
  Proof.
    intros E (?&?&?&?&?&?&?&?&?&?&?&?).
    split_and!; try assumption; (eapply val_ext || eapply val3s_ext || eapply core_ext); eassumption.
  Qed.
End Rel.

(** A pure step on pointers while a point is under construction *)
Tactic Notation "ixb" constr(L) ident(t) ident(v) ident(V) :=
  eapply runs_bind; [eapply runs_mlift_at; eapply L; eassumption|]; cbn beta; intros t ? v _ [-> V].

(** t := l.MulV(xs); s := t.Sum(); X.Add(s) *)
Tactic Notation "msum" ident(A) := try apply runs_assoc; eapply runs_bind; [eapply runs_MulV; sd|]; cbn beta;
  let t := fresh "t" in let h := fresh "h" in let T := fresh "T" in let E := fresh in intros t h ? _ [E T]; push E; clear E;
  (eapply runs_bind; [eapply runs_Sum; exact T|]); cbn beta; clear T;
  let t := fresh "t" in let h := fresh "h" in let T := fresh "T" in let E := fresh in intros t h ? _ T;
  pose proof (acc_e _ _ _ _ T) as E; push E; apply acc_v in T; clear E; add A; clear T.
(** As up and fin, for the parameters of the range proofs too *)
Tactic Notation "up'" ident(E) ident(HP) := apply (rel_rppp_ext _ _ _ _ _ E) in HP; up E.
Tactic Notation "fin'" ident(A) ident(HP) := let E := fresh in pose proof (acc_e _ _ _ _ A) as E; apply acc_v in A;
  apply (rel_rppp_ext _ _ _ _ _ E) in HP; up E.
(** X.Add(l.Mul(x)) *)
Tactic Notation "madd" ident(A) := eapply runs_step; [eapply runs_Mul; sd|]; cbn beta;
  let t := fresh "t" in let h := fresh "h" in let T := fresh "T" in intros t h T;
  let E := fresh in pose proof (acc_e _ _ _ _ T) as E; push E; apply acc_v in T; clear E; add A; clear T.

Section Range.
  Context {C : Curve}.
  Local Notation mem := (mem C).
  Local Notation M := (M C).

  Lemma runs_RO1 h p (q : RPPP C) V Vv W Wv Q Qv : mr_digest p = rp_Digest q -> val h V Vv -> val h W Wv -> val h Q Qv ->
    runs (m_rangeProofRO1 p V W Q) h (rangeProofRO1 q Vv Wv Qv) (fun a h' b => h' = h /\ a = b).
  Proof.
    intros HD HV HW HQ. unfold m_rangeProofRO1, rangeProofRO1. rewrite HD.
    rd @runs_Bytes. rd @runs_Bytes. rd @runs_Bytes. apply runs_lift.
  Qed.
  Lemma runs_computeZ h p (q : RPPP C) C1 C1v C2 C2v Q Qv R Rv y0 y1 : mr_digest p = rp_Digest q ->
    val h C1 C1v -> val h C2 C2v -> val h Q Qv -> val h R Rv ->
    runs (m_computeZ p C1 C2 Q R y0 y1) h (computeZ q C1v C2v Qv Rv y0 y1) (fun a h' b => h' = h /\ a = b).
  Proof.
    intros HD HC1 HC2 HQ HR. unfold m_computeZ, computeZ. rewrite HD.
    rd @runs_Bytes. rd @runs_Bytes. rd @runs_randomOracle. apply runs_lift.
  Qed.
  Lemma runs_rp_y h p (q : RPPP C) b x Q Qv R Rv : mr_digest p = rp_Digest q -> val h Q Qv -> val h R Rv ->
    runs (m_rp_y p b x Q R) h (rp_y q b x Qv Rv) (fun a h' b => h' = h /\ a = b).
  Proof. intros HD HQ HR. unfold m_rp_y, rp_y. rewrite HD. rd @runs_randomOracle. apply runs_lift. Qed.

  Lemma runs_ppU h ctx (q : list (G1 C)) (k : list (G1 C)) qs ks : vals h qs q -> vals h ks k ->
    runs (let* us := m_RandGenVec 1 ctx in let* U := mlift (idx us 0) in m_RecomputeDigest (MkMbp [] qs ks U)) h
      (let! U := idx (RandGenVec (C:=C) 1 ctx) 0 in RecomputeDigest (MkBpPP [] q k U)) (fun a h' b => ext [] h h' /\ rel_bp h' a b).
  Proof.
    intros Hq Hk. pose proof (ext_refl [] h) as E0. news @runs_RandGenVec us. ix @runs_idx U Uv VU.
    eapply runs_post; [apply runs_RecomputeDigest|].
    { split_and!; cbn; try assumption; reflexivity. }
    cbn beta. intros a hz b _ [-> H1]. auto.
  Qed.
  Lemma runs_ppRdx h p (q : RPPP C) : rel_rppp h p q -> runs (m_ppRdx p) h (ppRdx q) (fun a h' b => ext [] h h' /\ rel_bp h' a b).
  Proof. intros H. apply (runs_ppU h); [apply H|constructor]. Qed.
  Lemma runs_rp_ipaPP h p (q : RPPP C) F Fv : rel_rppp h p q -> vals h F Fv ->
    runs (m_rp_ipaPP p F) h (rp_ipaPP q Fv) (fun a h' b => ext [] h h' /\ rel_bp h' a b).
  Proof. intros H HF. apply (runs_ppU h); [apply H|exact HF]. Qed.
  Lemma runs_rp_Fprime h p (q : RPPP C) y0 : zero_ok h -> rel_rppp h p q ->
    runs (m_rp_Fprime p y0) h (rp_Fprime q y0) (fun a h' b => ext [] h h' /\ vals h' a b).
  Proof.
    intros Z (_ & _ & _ & _ & _ & H & _). unfold m_rp_Fprime, rp_Fprime. rewrite (vals_length _ _ _ H). apply runs_MulV; assumption.
  Qed.

  Lemma runs_computeP h p (q : RPPP C) ρ Q Qv R Rv z y1v n m F Fv d y1 : zero_ok h -> rel_rppp h p q ->
    val h Q Qv -> val h R Rv -> vals h F Fv ->
    runs (m_computeP p ρ Q R z y1v n m F d y1) h (computeP q ρ Qv Rv z y1v n m Fv d y1) (fun a h' b => acc h h' a b).
  Proof.
    intros Z (HG & HH & HF & HGs & HHs & HFs & HD) HQ HR HFp. unfold m_computeP, computeP. cbv zeta.
    start P A. add A. madd A. ixb @runs_slice_to Hs' Hs'v VHs. msum A. msum A.
    ixb @runs_slice_to Fs' Fs'v VFs. msum A. apply runs_ret. exact A.
  Qed.

  (** VerifyRange (bp/range.go:81-160): the verdict is that of the model, only the claim of the given inner-product proof is
      overwritten. *)
  Lemma runs_VerifyRange h p (q : RPPP C) rp (rq : RangeProof C) V Vv : zero_ok h -> rel_rppp h p q -> rel_rp h rp rq -> val h V Vv ->
    runs (m_VerifyRange p rp V) h (VerifyRange q rq Vv) (fun e h' e' => ext [mq_Π rp] h h' /\ e = e').
  Proof.
    intros Z HP HR HV. unfold VerifyRange. apply runs_map. unfold m_VerifyRange, VerifyRange_st. cbv zeta.
    pose proof HP as (HG & HH & HF & HGs & HHs & HFs & HD).
    pose proof HR as (HΔ & Hu & HW & Hγ & HΠ & Hc & HQ & HRR & HC1 & HC2 & Hτ & Hρ).
    rewrite (vals_length _ _ _ HGs), Hu, Hγ, Hρ, Hc, Hτ. clear HR.
    pose proof (ext_refl [mq_Π rp] h) as E0.
    rd @runs_RO1. start U A. add A. madd A. 
    assert (HP' := HP).
    pose proof (acc_e _ _ _ _ A) as EA. apply (rel_rppp_ext _ _ _ _ _ EA) in HP. clear EA HP'. fin A.
    eapply runs_bind; [eapply runs_ppRdx; eassumption|]. cbn beta. intros rdx ? rdxv _ [E Hrdx]. apply (rel_rppp_ext _ _ _ _ _ E) in HP. up E.
    eapply runs_bind; [eapply runs_IterativeVerify; sd|]. cbn beta. intros ir ? irv _ [E ->]. apply (rel_rppp_ext _ _ _ _ _ E) in HP. up E.
    destruct irv as [[xs u]|err]; [|apply runs_ret; auto].
    pu f. pu d. rd @runs_rp_y. rd @runs_rp_y. rd @runs_computeZ.
    eapply runs_bind; [eapply runs_rp_Fprime; eassumption|]. cbn beta. intros Fp ? Fpv _ [E HFp]. apply (rel_rppp_ext _ _ _ _ _ E) in HP. up E.
    eapply runs_bind; [eapply runs_rp_ipaPP; eassumption|]. cbn beta. intros ipp ? ippv _ [E Hipp]. apply (rel_rppp_ext _ _ _ _ _ E) in HP. up E.
    eapply runs_bind; [eapply runs_computeP; eassumption|]. cbn beta. intros P ? Pv _ A1. fin A1.
    eapply runs_step; [eapply (runs_ipp_set _ _ (rp_Π rq)); eassumption|]. cbn beta. intros ? hs [E HΠ'].
    assert (E1 := ext_trans _ _ _ _ E0 E). clear E0. rename E1 into E0.
    apply (val_ext _ _ _ _ _ E) in HG, HH, HC1, HC2. apply (rel_bp_ext _ _ _ _ _ E) in Hipp. clear - HG HH HC1 HC2 Hipp E0 HΠ'.
    eapply runs_bind; [eapply runs_IPP_Verify; eassumption|]. cbn beta. intros e ? e' _ [E ->]. up E.
    destruct e' as [|err]; [|apply runs_ret; auto].
    pu β1. pu β2. pu d'. pu β3.
    start L A. madd A. madd A. fin A.
    start R A0. madd A0. fin A0.
    rd @runs_Equals. apply (runs_if (geqb _ _)); intros _; apply runs_ret; auto.
  Qed.

  (** The parts of the parameters while a point is under construction *)
  Lemma runs_two hb G (Gv : G1 C) H Hv c1 c2 τ1 τ2 : val hb G Gv -> val hb H Hv ->
    runs (let* C1 := p_Mul G c1 in let* C2 := p_Mul G c2 in
          let* t := p_Mul H τ1 in let* _ := p_Add C1 t in
          let* t := p_Mul H τ2 in let* _ := p_Add C2 t in Model_mem.mret (C1, C2)) hb
      (Ret (gadd (gmul c1 Gv) (gmul τ1 Hv), gadd (gmul c2 Gv) (gmul τ2 Hv)))
      (fun a h' b => ext [] hb h' /\ val h' a.1 b.1 /\ val h' a.2 b.2).
  Proof.
    intros HG HH. start X A. eapply runs_step; [eapply runs_Mul; sd|]. cbn beta. intros Y h2 B.
    assert (X <> Y) as N.
    { destruct B as (_ & L & _). pose proof (val_lt _ _ _ (acc_v _ _ _ _ A)). lia. }
    assert (acc hb h2 Y (gmul c2 Gv)) as B' by (eapply acc_base; [eapply acc_e; exact A|exact B]).
    pose proof (acc_e _ _ _ _ B) as E. clear B. push E. clear E.
    eapply runs_step; [eapply runs_Mul; eapply val_ext; [eapply acc_e; exact A|exact HH]|]. cbn beta. intros t3 h3 T.
    pose proof (acc_e _ _ _ _ T) as E. push E. clear E.
    eapply runs_step; [eapply (runs_Add2 hb h3 X _ t3 _ Y _ N A B'); apply T|]. cbn beta. intros ? h4 [A4 B4]. clear A B' T.
    eapply runs_step; [eapply runs_Mul; eapply val_ext; [eapply acc_e; exact A4|exact HH]|]. cbn beta. intros t5 h5 T.
    pose proof (acc_e _ _ _ _ T) as E. push E. clear E.
    eapply runs_step; [eapply (runs_Add2 hb h5 Y _ t5 _ X _ (not_eq_sym N) B4 A4); apply T|]. cbn beta. intros ? h6 [B6 A6].
    apply runs_ret. cbn. split; [apply A6|]. split; [apply A6|apply B6].
  Qed.
  Lemma mbind_assoc {A B D} (m : M A) (f : A -> M B) (g : B -> M D) h : Model_mem.mbind (Model_mem.mbind m f) g h = Model_mem.mbind m (fun a => Model_mem.mbind (f a) g) h.
  Proof. unfold Model_mem.mbind. destruct (m h) as [[a h']| |]; reflexivity. Qed.
  Lemma runs_eq {A B} (m m' : M A) h (r : res B) Φ : m h = m' h -> runs m' h r Φ -> runs m h r Φ.
  Proof. unfold runs. intros ->. exact id. Qed.
  Lemma mbind_ext {A B} (m : M A) (f g : A -> M B) h : (forall a h, f a h = g a h) -> Model_mem.mbind m f h = Model_mem.mbind m g h.
  Proof. intros H. unfold Model_mem.mbind. destruct (m h) as [[a h']| |]; [apply H|reflexivity..]. Qed.
  Lemma runs_two_bind {A B} h G (Gv : G1 C) H Hv c1 c2 τ1 τ2 (k : loc -> loc -> M A) (r : res B) Ψ : val h G Gv -> val h H Hv ->
    (forall C1 C2 h', ext [] h h' -> val h' C1 (gadd (gmul c1 Gv) (gmul τ1 Hv)) -> val h' C2 (gadd (gmul c2 Gv) (gmul τ2 Hv)) ->
       runs (k C1 C2) h' r Ψ) ->
    runs (let* C1 := p_Mul G c1 in let* C2 := p_Mul G c2 in
          let* t := p_Mul H τ1 in let* _ := p_Add C1 t in
          let* t := p_Mul H τ2 in let* _ := p_Add C2 t in k C1 C2) h r Ψ.
  Proof.
    intros HG HH HK. pose proof (runs_two h G Gv H Hv c1 c2 τ1 τ2 HG HH) as R.
    eapply runs_eq; [|eapply (runs_step _ (fun a => k a.1 a.2)); [exact R|]].
    - rewrite mbind_assoc. apply mbind_ext. intros C1 h1. rewrite mbind_assoc. apply mbind_ext. intros C2 h2.
      rewrite mbind_assoc. apply mbind_ext. intros t3 h3. rewrite mbind_assoc. apply mbind_ext. intros u4 h4.
      rewrite mbind_assoc. apply mbind_ext. intros t5 h5. rewrite mbind_assoc. apply mbind_ext. intros u6 h6. reflexivity.
    - cbn beta. intros [C1 C2] h' (E & V1 & V2). apply HK; assumption.
  Qed.

  Lemma runs_ProveRange_unchecked h p (q : RPPP C) V Vv v r co : zero_ok h -> rel_rppp h p q -> val h V Vv ->
    runs (m_ProveRange_unchecked p V v r co) h (ProveRange_unchecked q Vv v r co)
      (fun a h' b => ext [] h h' /\ rel_rp h' a.1 b.1 /\ whole h' (mq_Π a.1) (rp_Π b.1) /\ (length (mipps h) <= mq_Π a.1)%nat /\ rel_bp h' a.2 b.2).
  Proof.
    intros Z HP HV. unfold m_ProveRange_unchecked, ProveRange_unchecked. cbv zeta.
    pose proof HP as (HG & HH & HF & HGs & HHs & HFs & HD). rewrite (vals_length _ _ _ HGs).
    pose proof (ext_refl [] h) as E0.
    start W A. msum A. fin' A HP. pu bits. pu vb. pu wc.
    start Q A0. msum A0. ixb @runs_slice_to Fs Fsv VFs. msum A0. fin' A0 HP.
    rd @runs_RO1. start U A1. add A1. madd A1. fin' A1 HP.
    eapply runs_bind; [eapply runs_ppRdx; eassumption|]. cbn beta. intros rdx ? rdxv _ [E Hrdx]. up' E HP.
    pu wr. eapply runs_bind; [eapply runs_IterativeReduce; sd|]. cbn beta.
    intros [[Δ xs] u] ? [[Δv xs'] u'] _ (E & HΔ & Hxs & Hu). cbn [fst snd] in HΔ, Hxs, Hu. subst xs' u'. up' E HP.
    pu f. pu d. start R A2. msum A2. msum A2. fin' A2 HP.
    rd @runs_rp_y. rd @runs_rp_y. pu aP. pu bb1. pu wy. pu bP. pu y0t. pu anm. pu c1a. pu c1b. pu snm. pu c2.
    eapply runs_two_bind; [eassumption..|]. intros C1 C2 ? E HC1 HC2. up' E HP.
    rd @runs_computeZ.
    eapply runs_bind; [eapply runs_rp_Fprime; eassumption|]. cbn beta. intros Fp ? Fpv _ [E HFp]. up' E HP.
    pu a'. pu b'. pu c'.
    eapply runs_bind; [eapply runs_rp_ipaPP; eassumption|]. cbn beta. intros ipp ? ippv _ [E Hipp]. up' E HP.
    eapply runs_bind; [eapply runs_NewInnerProdArgument; eassumption|]. cbn beta. intros arg ? argv _ [E Harg]. up' E HP.
    pose proof (ext_ipps_length _ _ _ E0) as Hl0.
    eapply runs_bind; [eapply runs_IPA_Prove; eassumption|]. cbn beta. intros π ? πv _ (E & Hl & Hπ). up' E HP.
    apply runs_ret. cbn [fst snd]. split; [exact E0|]. split; [|split_and!; try assumption; cbn; lia].
    split_and!; cbn; try assumption; try reflexivity. apply whole_core. exact Hπ.
  Qed.
  (** ProveRange (bp/range.go:162-278) *)
  Lemma runs_ProveRange h p (q : RPPP C) V Vv v r co : zero_ok h -> rel_rppp h p q -> val h V Vv ->
    runs (m_ProveRange p V v r co) h (ProveRange q Vv v r co)
      (fun a h' b => ext [] h h' /\ rel_rp h' a b /\ whole h' (mq_Π a) (rp_Π b) /\ (length (mipps h) <= mq_Π a)%nat).
  Proof.
    intros Z HP HV. unfold m_ProveRange, ProveRange.
    eapply runs_bind; [eapply runs_ProveRange_unchecked; eassumption|]. cbn beta.
    intros [rp pp] ? [rpv ppv] _ (E0 & HR & Hπ & Hl & Hpp). cbn [fst snd] in *.
    eapply runs_bind; [eapply runs_IPP_Verify; eassumption|]. cbn beta. intros e ? e' _ [E ->].
    apply (rel_rp_ext _ _ _ _ _ E) in HR. up E. destruct e'; [|reflexivity]. apply runs_ret. auto.
  Qed.
End Range.
