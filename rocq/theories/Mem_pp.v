(** The memory-level functions of pp/pointproofs.go and sum/sa.go compared with those of Model_pp and Model_sum. *)
From Verif Require Export Mem_range Pp_facts Model_sum.
Local Open Scope Zr_scope.

(** Facts about lists of pointers *)
Ltac vl := repeat first [eassumption | apply Forall2_app | constructor].

Section Pp.
  Context {C : Curve}.
  Local Notation mem := (mem C).
  Local Notation M := (M C).

  Definition rel_pp (h : mem) (p : mPP) (q : PP C) : Prop :=
    mp_Digest p = pp_Digest q /\ mp_N p = pp_N q /\ vals h (mp_G1s p) (pp_G1s q) /\ mp_G2s p = pp_G2s q /\ mp_Gt p = pp_Gt q.
  Lemma rel_pp_ext S h h' p q : ext S h h' -> rel_pp h p q -> rel_pp h' p q.
  Proof. intros E (?&?&?&?&?). split_and!; try assumption. eapply vals_ext; eassumption. Qed.

  (** A loop of computations that make new points *)
  Lemma runs_mmapM {A B D} (R : mem -> A -> B -> Prop) (f : D -> M A) (g : D -> res B) h0 h l :
    (forall h h' a b, ext [] h h' -> R h a b -> R h' a b) ->
    (forall d h, ext [] h0 h -> runs (f d) h (g d) (fun a h' b => ext [] h h' /\ R h' a b)) ->
    ext [] h0 h -> runs (mmapM f l) h (mapM g l) (fun a h' b => ext [] h h' /\ Forall2 (R h') a b).
  Proof.
    intros Hm Hf. revert h. induction l as [|d l IH]; intros h E; cbn [mmapM mapM].
    - apply runs_ret. split; [apply ext_refl|constructor].
    - eapply runs_bind; [apply Hf; exact E|]. cbn beta. intros a h1 b _ [E1 H1].
      eapply runs_bind; [apply IH; eapply ext_trans; eassumption|]. cbn beta. intros as' h2 bs _ [E2 H2].
      apply runs_ret. split; [eapply ext_trans; eassumption|]. constructor; [eapply Hm; eassumption|exact H2].
  Qed.

  (** Commit (pp/pointproofs.go:79-90) *)
  Lemma runs_Commit h p (q : PP C) m : zero_ok h -> rel_pp h p q ->
    runs (m_Commit p m) h (Commit q m) (fun a h' b => ext [] h h' /\ val h' a b).
  Proof.
    intros Z (HD & HN & HG1 & HG2 & HT). unfold m_Commit, Commit. rewrite HN. pose proof (ext_refl [] h) as E0.
    apply runs_check. intros _. ix @runs_mapM_idx po pov Vpo. new @runs_MulV l lv.
    eapply runs_post; [eapply runs_Sum; sd|]. cbn beta. intros s hs sv _ A. fin A. auto.
  Qed.
  (** Open (pp/pointproofs.go:92-114) *)
  Lemma runs_Open h p (q : PP C) i m : zero_ok h -> rel_pp h p q ->
    runs (m_Open p i m) h (Open q i m) (fun a h' b => ext [] h h' /\ a.1 = b.1 /\ val h' a.2 b.2).
  Proof.
    intros Z (HD & HN & HG1 & HG2 & HT). unfold m_Open, Open. rewrite HN. cbv zeta. pose proof (ext_refl [] h) as E0.
    apply runs_check. intros _.
    eapply runs_bind; [eapply (runs_mapM_idx _ _ _ (fun j => pp_N q - i + j - 1)%nat); exact HG1|]. cbn beta. intros el ? elv _ [-> Vel].
    pu ex'. new @runs_MulV l lv.
    eapply runs_bind; [eapply runs_Sum; sd|]. cbn beta. intros s hs sv _ A. fin A. pu mi. apply runs_ret. cbn. auto.
  Qed.
  Lemma m_g2_at_eq h p (q : PP C) i : rel_pp h p q -> m_g2_at p i = g2_at q i.
  Proof. intros (_ & HN & _ & HG2 & _). unfold m_g2_at, g2_at. rewrite HN, HG2. reflexivity. Qed.
  (** Verify (pp/pointproofs.go:116-125) *)
  Lemma runs_pp_Verify h p (q : PP C) mi π πv Cm Cmv i : rel_pp h p q -> val h π πv -> val h Cm Cmv ->
    runs (m_pp_Verify p mi π Cm i) h (Verify q mi πv Cmv i) (fun e h' e' => h' = h /\ e = e').
  Proof.
    intros HP Hπ HC. unfold m_pp_Verify, Verify. rewrite (m_g2_at_eq h p q i HP). pose proof HP as (_ & _ & _ & _ & HT).
    pu g2. eapply runs_bind; [eapply runs_InnerProd; vl|]. cbn beta. intros ? ? ? _ [-> ->].
    eapply runs_bind; [eapply runs_InnerProd; vl|]. cbn beta. intros ? ? ? _ [-> ->].
    rewrite HT. apply runs_if; intros _; apply runs_ret; auto.
  Qed.

  (** Update (pp/pointproofs.go:127-132) changes the commitment it is given and no other point. *)
  Definition only_changes (l : loc) (h h' : mem) : Prop :=
    (forall l' v, l' <> l -> val h l' v -> val h' l' v) /\ mipps h' = mipps h /\
    (exists w, mwrites h' = w ++ mwrites h /\ Forall (fun e => e = WPoint l \/ exists l', e = WPoint l' /\ (length (mpts h) <= l')%nat) w).
  Lemma val_fun h l (v w : G1 C) : val h l v -> val h l w -> v = w.
  Proof. unfold val. intros H1 H2. rewrite H1 in H2. injection H2. auto. Qed.
  Lemma runs_Update h p (q : PP C) Cm Cmv m mi i : rel_pp h p q -> val h Cm Cmv ->
    runs (m_Update p Cm m mi i) h (Update q Cmv m mi i) (fun _ h' v => val h' Cm v /\ only_changes Cm h h').
  Proof.
    intros (_ & _ & HG & _ & _) HC. unfold m_Update, Update. ix @runs_idx g gv Vg. pu old. cbv zeta.
    assert (forall h l (v : G1 C) x, val h l v -> p_Mul l x h = Ret (length (mpts h), MkMem (mpts h ++ [gmul x v]) (mipps h) (mwrites h))) as HM.
    { clear. intros h l v x H. unfold p_Mul, Model_mem.mbind. rewrite (deref_val _ _ _ H). reflexivity. }
    unfold runs, Model_mem.mbind at 1. rewrite (HM _ _ _ _ Vg). cbn beta iota.
    set (h1 := MkMem _ _ _). assert (val h1 g gv) as Vg1 by (apply lookup_app_l_Some; exact Vg).
    unfold Model_mem.mbind at 1. rewrite (HM _ _ _ _ Vg1). cbn beta iota.
    set (h2 := MkMem (mpts h1 ++ _) _ _).
    assert (val h2 (length (mpts h)) (gmul old gv)) as V1 by (apply lookup_app_l_Some, list_lookup_middle; reflexivity).
    assert (val h2 (length (mpts h1)) (gmul mi gv)) as V2 by (apply list_lookup_middle; reflexivity).
    assert (val h2 Cm Cmv) as HC2 by (apply lookup_app_l_Some, lookup_app_l_Some; exact HC).
    pose proof (val_lt _ _ _ HC) as L. pose proof (val_lt _ _ _ HC2) as L2.
    assert (length (mpts h1) = S (length (mpts h))) as L1 by (unfold h1; cbn; rewrite app_length; cbn; lia).
    unfold Model_mem.mbind at 1. rewrite (Sub_run _ _ _ _ _ HC2 V1). cbn beta iota.
    set (h3 := MkMem _ _ _).
    assert (val h3 Cm (gadd Cmv (gopp (gmul old gv)))) as HC3 by (apply list_lookup_insert; exact L2).
    assert (val h3 (length (mpts h1)) (gmul mi gv)) as V3.
    { unfold val, h3. cbn [mpts]. rewrite L1 in V2 |- *. rewrite list_lookup_insert_ne by (clear - L; lia). exact V2. }
    rewrite (Add_run _ _ _ _ _ HC3 V3). eexists _, _. split; [reflexivity|].
    split; [apply list_lookup_insert; eapply val_lt; exact HC3|]. split_and!.
    - intros l v N V. unfold val. cbn. rewrite !list_lookup_insert_ne by congruence.
      apply lookup_app_l_Some, lookup_app_l_Some. exact V.
    - reflexivity.
    - exists [WPoint Cm; WPoint Cm]. split; [reflexivity|]. repeat constructor; auto.
  Qed.

  Lemma runs_pp_RO h p (q : PP C) cs csv i : rel_pp h p q -> vals h cs csv ->
    runs (m_pp_RO p cs i) h (RO q csv i) (fun a h' b => h' = h /\ a = b).
  Proof. intros (HD & _) H. unfold m_pp_RO, RO. rewrite HD. rd @runs_derefs. apply runs_lift. Qed.
  (** Aggregate (pp/pointproofs.go:134-145) *)
  Lemma runs_Aggregate h p (q : PP C) cs csv πs πsv : rel_pp h p q -> vals h cs csv -> vals h πs πsv ->
    runs (m_Aggregate p cs πs) h (Aggregate q csv πsv RO) (fun a h' b => ext [] h h' /\ val h' a b).
  Proof.
    intros HP HC Hπ. unfold m_Aggregate, Aggregate. rewrite (vals_length _ _ _ HC), (vals_length _ _ _ Hπ). apply runs_check. intros _.
    eapply runs_bind; [eapply (runs_mmapM (fun h => val h) _ _ h)|].
    - intros h1 h2 a b E. apply val_ext with (1 := E).
    - intros j h1 E. apply (rel_pp_ext _ _ _ _ _ E) in HP. apply (vals_ext _ _ _ _ _ E) in HC, Hπ. clear E. cbn beta.
      ix @runs_idx π πv Vπ. rd @runs_pp_RO. eapply runs_post; [eapply runs_Mul; eassumption|]. cbn beta.
      intros l h2 v _ A. split; [eapply acc_e; exact A|eapply acc_v; exact A].
    - apply ext_refl.
    - cbn beta. intros l h1 lv _ [E V]. eapply runs_post; [eapply runs_Sum; exact V|]. cbn beta. intros s h2 sv _ A.
      split; [eapply ext_trans; [exact E|eapply acc_e; exact A]|eapply acc_v; exact A].
  Qed.
  (** VerifyAggregation (pp/pointproofs.go:147-168) *)
  Lemma runs_VerifyAggregation h p (q : PP C) is cs csv π πv Σ : rel_pp h p q -> vals h cs csv -> val h π πv ->
    runs (m_VerifyAggregation p is cs π Σ) h (VerifyAggregation q is csv πv Σ RO) (fun e h' e' => ext [] h h' /\ e = e').
  Proof.
    intros HP HC Hπ. unfold m_VerifyAggregation, VerifyAggregation. pose proof (ext_refl [] h) as E0.
    eapply runs_bind; [eapply (runs_mmapM (fun _ => eq) _ _ h)|].
    - auto.
    - intros j h1 E. eapply runs_post; [eapply runs_pp_RO; [eapply rel_pp_ext; eassumption|eapply vals_ext; eassumption]|].
      cbn beta. intros a h2 b _ [-> ->]. split; [apply ext_refl|reflexivity].
    - apply ext_refl.
    - cbn beta. intros xs h1 xsv _ [E HX]. apply (rel_pp_ext _ _ _ _ _ E) in HP. up E.
      assert (xs = xsv) as -> by (clear - HX; induction HX; congruence).
      rewrite (Pp_facts.mapM_ext (fun i => m_g2_at p i) (fun i => g2_at q i)) by (intros; eapply m_g2_at_eq; exact HP).
      pose proof HP as (_ & _ & _ & _ & HT). rewrite HT. pu g2s. pu g2m. rd @runs_InnerProd.
      eapply runs_bind; [eapply runs_InnerProd; vl|]. cbn beta. intros ? ? ? _ [-> ->].
      apply runs_if; intros _; apply runs_ret; auto.
  Qed.
End Pp.

Section Sum.
  Context {C : Curve}.
  Local Notation mem := (mem C).
  Local Notation M := (M C).

  Definition rel_sum (h : mem) (p : msumPP) (q : sumPP C) : Prop :=
    val h (ms_U p) (sp_U q) /\ vals h (ms_Gs p) (sp_Gs q) /\ val h (ms_F p) (sp_F q) /\ vals h (ms_H p) (sp_H q) /\
    ms_b p = sp_b q /\ val h (ms_B p) (sp_B q).
  Lemma rel_sum_ext S h h' p q : ext S h h' -> rel_sum h p q -> rel_sum h' p q.
  Proof. intros E (?&?&?&?&?&?). split_and!; try assumption; (eapply val_ext || eapply vals_ext); eassumption. Qed.
  Definition rel_sp (h : mem) (p : msumProof) (q : sumProof C) : Prop :=
    val h (mt_W p) (sm_W q) /\ mt_c p = sm_c q /\ mt_ρ p = sm_ρ q /\ core h (mt_π p) (sm_π q).
  Lemma rel_sp_ext S h h' p q : ext S h h' -> rel_sp h p q -> rel_sp h' p q.
  Proof. intros E (?&?&?&?). split_and!; try assumption; (eapply val_ext || eapply core_ext); eassumption. Qed.

  Lemma runs_CVW h c V (Vv : G1 C) W Wv : val h V Vv -> val h W Wv ->
    runs (m_randomOracleCVW c V W) h (randomOracleCVW c Vv Wv) (fun a h' b => h' = h /\ a = b).
  Proof. intros HV HW. unfold m_randomOracleCVW, randomOracleCVW. rd @runs_Bytes. rd @runs_Bytes. apply runs_lift. Qed.
  Lemma runs_sum_ipaPP h p (q : sumPP C) : rel_sum h p q -> runs (m_sum_ipaPP p) h (sum_ipaPP q) (fun a h' b => h' = h /\ rel_bp h a b).
  Proof. intros (?&?&?&?&?&?). apply runs_RecomputeDigest. split_and!; cbn; assumption || reflexivity. Qed.
  (** NewCommitment (sum/sa.go:118-135) *)
  Lemma runs_NewCommitment h p (q : sumPP C) v r : zero_ok h -> rel_sum h p q ->
    runs (m_NewCommitment p v r) h (sum_NewCommitment q v r) (fun a h' b => ext [] h h' /\ val h' a b).
  Proof.
    intros Z (HU & HGs & HF & HH & Hb & HB). unfold m_NewCommitment, sum_NewCommitment. cbv zeta. pose proof (ext_refl [] h) as E0.
    start V A. msum A. fin A. pu v0. pu vn. apply runs_check. intros _. apply runs_ret. auto.
  Qed.
  (** NewArgument (sum/sa.go:137-173) *)
  Lemma runs_NewArgument h p (q : sumPP C) V Vv v r w r' : zero_ok h -> rel_sum h p q -> val h V Vv ->
    runs (m_NewArgument p V v r w r') h (sum_NewArgument q Vv v r w r')
      (fun a h' b => ext [] h h' /\ rel_sp h' a b /\ whole h' (mt_π a) (sm_π b) /\ (length (mipps h) <= mt_π a)%nat).
  Proof.
    intros Z HP HV. unfold m_NewArgument, sum_NewArgument. cbv zeta. pose proof (ext_refl [] h) as E0.
    pose proof HP as (HU & HGs & HF & HH & Hb & HB). rewrite Hb.
    start W A. msum A. fin A. pu c. rd @runs_CVW. start P B. add B. madd B. add B. fin B.
    apply (rel_sum_ext _ _ _ _ _ E0) in HP.
    eapply runs_bind; [eapply runs_sum_ipaPP; exact HP|]. cbn beta. intros pp ? ppv _ [-> Hpp].
    pu av. eapply runs_bind; [eapply runs_NewInnerProdArgument; exact Hpp|]. cbn beta. intros arg ? argv _ [E Harg]. up E.
    pose proof (ext_ipps_length _ _ _ E0) as Hl0.
    eapply runs_bind; [eapply runs_IPA_Prove; exact Harg|]. cbn beta. intros π ? πv _ (E & Hl & Hπ). up E.
    apply runs_ret. cbn. split; [exact E0|]. split; [|split; [exact Hπ|lia]].
    split_and!; cbn; try assumption; try reflexivity. apply whole_core. exact Hπ.
  Qed.
  (** Verify (sum/sa.go:185-204) *)
  Lemma runs_sum_Verify h p (q : sumPP C) pf (pfv : sumProof C) V Vv : zero_ok h -> rel_sum h p q -> rel_sp h pf pfv -> val h V Vv ->
    runs (m_sum_Verify pf p V) h (sum_Verify pfv q Vv) (fun e h' e' => ext [mt_π pf] h h' /\ e = e').
  Proof.
    intros Z HP (HW & Hc & Hρ & Hπ) HV. unfold m_sum_Verify, sum_Verify. cbv zeta. rewrite Hc, Hρ.
    pose proof (ext_refl [mt_π pf] h) as E0. pose proof HP as (HU & HGs & HF & HH & Hb & HB).
    rd @runs_CVW. start P A. add A. madd A. add A. fin A. apply (rel_sum_ext _ _ _ _ _ E0) in HP.
    eapply runs_bind; [eapply runs_sum_ipaPP; exact HP|]. cbn beta. intros pp ? ppv _ [-> Hpp].
    eapply runs_step; [eapply (runs_ipp_set _ _ (sm_π pfv)); eassumption|]. cbn beta. intros ? hs [E Hπ'].
    apply (rel_bp_ext _ _ _ _ _ E) in Hpp. assert (E1 := ext_trans _ _ _ _ E0 E). clear E E0.
    eapply runs_post; [eapply runs_IPP_Verify; eassumption|]. cbn beta. intros e hz e' _ [E ->]. up E. auto.
  Qed.
  Lemma runs_HVZK h V (Vv : list (G1 C)) m : vals h V Vv ->
    runs (m_createHVZKChallenge V m) h (createHVZKChallenge Vv m) (fun a h' b => h' = h /\ a = b).
  Proof. intros H. unfold m_createHVZKChallenge. rd @runs_derefs. apply runs_lift. Qed.
  (** NewAggregatedArgument (sum/sa.go:70-88) *)
  Lemma runs_NewAggregatedArgument h p (q : sumPP C) V Vv v r w r' : zero_ok h -> rel_sum h p q -> vals h V Vv ->
    runs (m_NewAggregatedArgument p V v r w r') h (sum_NewAggregatedArgument q Vv v r w r')
      (fun a h' b => ext [] h h' /\ rel_sp h' a b /\ whole h' (mt_π a) (sm_π b) /\ (length (mipps h) <= mt_π a)%nat).
  Proof.
    intros Z HP HV. unfold m_NewAggregatedArgument, sum_NewAggregatedArgument. pose proof (ext_refl [] h) as E0.
    rd @runs_HVZK. pu v0. pu vA. pu rA.
    apply runs_assoc. new @runs_MulV t tv. eapply runs_bind; [eapply runs_Sum; sd|]. cbn beta. intros VA ? VAv _ A. fin A.
    apply (rel_sum_ext _ _ _ _ _ E0) in HP. pose proof (ext_ipps_length _ _ _ E0) as Hl0.
    eapply runs_post; [eapply runs_NewArgument; eassumption|]. cbn beta. intros aa hz bb _ (E & K1 & K2 & K3). up E.
    split; [exact E0|]. split; [exact K1|]. split; [exact K2|lia].
  Qed.
  (** VerifyAggregated (sum/sa.go:109-116) *)
  Lemma runs_VerifyAggregated h p (q : sumPP C) pf (pfv : sumProof C) V Vv : zero_ok h -> rel_sum h p q -> rel_sp h pf pfv -> vals h V Vv ->
    runs (m_VerifyAggregated pf p V) h (sum_VerifyAggregated pfv q Vv) (fun e h' e' => ext [mt_π pf] h h' /\ e = e').
  Proof.
    intros Z HP HR HV. unfold m_VerifyAggregated, sum_VerifyAggregated. pose proof (ext_refl [] h) as E0.
    rewrite (vals_length _ _ _ HV). rd @runs_HVZK.
    apply runs_assoc. new @runs_MulV t tv. eapply runs_bind; [eapply runs_Sum; sd|]. cbn beta. intros VA ? VAv _ A. fin A.
    apply (rel_sum_ext _ _ _ _ _ E0) in HP. apply (rel_sp_ext _ _ _ _ _ E0) in HR.
    eapply runs_post; [eapply runs_sum_Verify; eassumption|]. cbn beta. intros aa hz bb _ [E ->].
    split; [|reflexivity]. eapply ext_trans; [eapply ext_weaken_nil; exact E0|exact E].
  Qed.
End Sum.
