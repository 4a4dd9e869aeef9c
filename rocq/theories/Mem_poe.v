(** The memory-level functions of poe/poe.go compared with those of Model_poe. *)
From Verif Require Export Mem_pp Model_poe.
Local Open Scope Zr_scope.

Section Rel.
  Context {C : Curve}.
  Local Notation mem := (mem C).
  Definition rel_poe (h : mem) (p : mpoePP) (q : poePP C) : Prop :=
    mo_Digest p = pe_Digest q /\ vals h (mo_G p) (pe_G q) /\ vals h (mo_H p) (pe_H q) /\ val h (mo_F p) (pe_F q) /\ rel_pp h (mo_PP p) (pe_PP q).
  Lemma rel_poe_ext S h h' p q : ext S h h' -> rel_poe h p q -> rel_poe h' p q.
  Proof. intros E (?&?&?&?&?). split_and!; try assumption; (eapply val_ext || eapply vals_ext || eapply rel_pp_ext); eassumption. Qed.
  Definition rel_eq (h : mem) (p : mEquality) (q : Equality C) : Prop :=
    me_RO p = eq_RO q /\ rel_poe h (me_PP p) (eq_PP q) /\ val h (me_V p) (eq_V q) /\ val h (me_W p) (eq_W q) /\ me_I p = eq_I q /\ me_J p = eq_J q.
  Definition rel_ep (h : mem) (p : meqProof) (q : eqProof C) : Prop :=
    mf_C p = ep_C q /\ val h (mf_V p) (ep_V q) /\ val h (mf_W p) (ep_W q) /\ val h (mf_Ω p) (ep_Ω q).
  Definition rel_eqs (h : mem) (p : mEqualities) (q : Equalities C) : Prop :=
    mg_RO p = es_RO q /\ rel_poe h (mg_PP p) (es_PP q) /\ vals h (mg_V p) (es_V q) /\ vals h (mg_W p) (es_W q) /\ mg_I p = es_I q /\ mg_J p = es_J q.
  Lemma rel_eqs_ext S h h' p q : ext S h h' -> rel_eqs h p q -> rel_eqs h' p q.
  Proof. intros E (?&?&?&?&?&?). split_and!; try assumption; (eapply val_ext || eapply vals_ext || eapply rel_poe_ext); eassumption. Qed.
  Definition rel_ap (h : mem) (p : mAggProof) (q : AggProof C) : Prop :=
    core h (mh_IPP p) (ap_IPP q) /\ mh_c p = ap_c q /\ mh_ρ p = ap_ρ q /\ val h (mh_U p) (ap_U q) /\ val h (mh_V p) (ap_V q) /\
    val h (mh_Ω p) (ap_Ω q) /\ vals h (mh_Waggr p) (ap_Waggr q) /\ vals h (mh_Vaggr p) (ap_Vaggr q).
  Lemma rel_ap_ext S h h' p q : ext S h h' -> rel_ap h p q -> rel_ap h' p q.
  Proof. intros E (?&?&?&?&?&?&?&?). split_and!; try assumption; (eapply val_ext || eapply vals_ext || eapply core_ext); eassumption. Qed.
  Definition rel_it (h : mem) (p : mIter) (q : poeIter C) : Prop :=
    val h (mj_V p) (it_V q) /\ val h (mj_Ωv p) (it_Ωv q) /\ val h (mj_W p) (it_W q) /\ val h (mj_Ωw p) (it_Ωw q) /\
    val h (mj_ΩvPP p) (it_ΩvPP q) /\ val h (mj_ΩwPP p) (it_ΩwPP q).
  Lemma rel_it_ext S h h' p q : ext S h h' -> rel_it h p q -> rel_it h' p q.
  Proof. intros E (?&?&?&?&?&?). split_and!; eapply val_ext; eassumption. Qed.
End Rel.

Ltac ip := eapply runs_bind; [eapply runs_InnerProd; vl|]; cbn beta; intros ? ? ? _ [-> ->].

Section Poe.
  Context {C : Curve}.
  Local Notation mem := (mem C).
  Local Notation M := (M C).

  Lemma runs_ro h (RO : poeRO C) gs gsv is d n : vals h gs gsv ->
    runs (m_ro RO gs is d n) h (RO gsv is d n) (fun a h' b => h' = h /\ a = b).
  Proof. intros H. unfold m_ro. rd @runs_derefs. apply runs_lift. Qed.

  (** Equality.Verify (poe/poe.go:308-341) *)
  Lemma runs_Equality_Verify h e (ev : Equality C) Υ (Υv : eqProof C) : val h GenG1 (gen1 C) -> rel_eq h e ev -> rel_ep h Υ Υv ->
    runs (m_Equality_Verify e Υ) h (Equality_Verify ev Υv) (fun x h' x' => ext [] h h' /\ x = x').
  Proof.
    intros HG (HRO & (HD & _ & _ & _ & HP) & HV & HW & HI & HJ) (Hc & HpV & HpW & HΩ).
    unfold m_Equality_Verify, Equality_Verify. cbv zeta. pose proof HP as (_ & _ & HG1 & HG2 & _). rewrite HRO, HD, HI, HJ, Hc, HG2.
    pose proof (ext_refl [] h) as E0.
    eapply runs_bind; [eapply runs_ro; vl|]. cbn beta. intros xl ? ? _ [-> ->]. pu x.
    eapply runs_step; [eapply runs_Copy; exact HG|]. cbn beta. intros g ? Vg. fin Vg.
    pt Vx VVx'. pt Wx VWx'. pt gC VgC.
    eapply runs_bind; [eapply runs_ro; vl|]. cbn beta. intros ts ? ? _ [-> ->]. pu t0. pu t1.
    start X A. add A. fin A. pt X' VX. start Y B. add B. fin B. pt Y' VY.
    pu g2I. ip. pu g2J. ip. ip. ix @runs_idx g10 g10v Vg10. pu g2l. ip.
    apply (runs_if (geqb _ _)); intros _; apply runs_ret; auto.
  Qed.
  (** Equality.Prove (poe/poe.go:345-398) *)
  Lemma runs_Equality_Prove h e (ev : Equality C) v w u η ν : zero_ok h -> val h GenG1 (gen1 C) -> rel_eq h e ev ->
    runs (m_Equality_Prove e v w u η ν) h (Equality_Prove ev v w u η ν) (fun a h' b => ext [] h h' /\ rel_ep h' a b).
  Proof.
    intros Z HG (HRO & (HD & _ & _ & _ & HP) & HV & HW & HI & HJ).
    unfold m_Equality_Prove, Equality_Prove. cbv zeta. pose proof HP as (_ & _ & HG1 & HG2 & _). rewrite HRO, HD, HI, HJ.
    pose proof (ext_refl [] h) as E0.
    pu vI. pu wJ. apply runs_check. intros _. apply runs_check. intros _.
    ix @runs_idx g1I g1Iv Vg1I. start V A. ixb @runs_idxZ g1n g1nv Vg1n. madd A. fin A.
    ix @runs_idx_last gl glv Vgl. pt ΩV VΩV. ix @runs_idx g1J g1Jv Vg1J. start W B. madd B. fin B.
    ix @runs_idx_last gl' gl'v Vgl'. pt ΩW VΩW.
    eapply runs_bind; [eapply runs_ro; vl|]. cbn beta. intros xl ? ? _ [-> ->]. pu x.
    eapply runs_step; [eapply runs_Copy; exact HG|]. cbn beta. intros g ? Vg. fin Vg.
    pt Vx VVx'. pt Wx VWx'. pt gC VgC.
    eapply runs_bind; [eapply runs_ro; vl|]. cbn beta. intros ts ? ? _ [-> ->]. pu τ0. pu τ1.
    pose proof (rel_pp_ext _ _ _ _ _ E0 HP) as HP1.
    eapply runs_bind; [eapply runs_Open; [sd|exact HP1]|]. cbn beta. intros [? Ωp] ? [? Ωpv] _ (E & _ & VΩp). cbn [snd] in VΩp. up E.
    pose proof (rel_pp_ext _ _ _ _ _ E0 HP) as HP2.
    eapply runs_bind; [eapply runs_Open; [sd|exact HP2]|]. cbn beta. intros [? Ωq] ? [? Ωqv] _ (E & _ & VΩq). cbn [snd] in VΩq. up E.
    start X A1. add A1. fin A1.
    start X' A2.
    (* ΩW is completed while ΩV, to be added to, is under construction *)
    pose proof (val_ext _ _ _ _ _ (acc_e _ _ _ _ A2) VΩW) as VΩW'. pose proof (val_ext _ _ _ _ _ (acc_e _ _ _ _ A2) VΩq) as VΩq'.
    eapply runs_step; [eapply runs_Mul; exact VΩW'|]. cbn beta. intros Y ? B1. add B1.
    pose proof (acc_e _ _ _ _ B1) as EB. push EB. apply acc_v in B1. clear EB VΩW' VΩq'.
    eapply runs_step; [eapply runs_Mul; exact B1|]. cbn beta. intros Y' ? B2.
    pose proof (acc_e _ _ _ _ B2) as EB. push EB. apply acc_v in B2. clear EB B1.
    add A2. clear B2. fin A2. apply runs_ret. split; [exact E0|]. split_and!; cbn; assumption || reflexivity.
  Qed.

  Lemma runs_poe_bpPP h p (q : poePP C) : rel_poe h p q -> runs (m_poe_bpPP p) h (poe_bpPP q) (fun a h' b => ext [] h h' /\ rel_bp h' a b).
  Proof. intros (_ & H1 & H2 & _). apply (runs_ppU h); assumption. Qed.
  Lemma m_poe_g2s_eq h p (q : PP C) I m : rel_pp h p q -> m_poe_g2s p I m = poe_g2s q I m.
  Proof. intros (_ & HN & _ & HG2 & _). unfold m_poe_g2s, poe_g2s. rewrite HN, HG2. reflexivity. Qed.

  (** Equalities.Verify (poe/poe.go:71-127) *)
  Lemma runs_Equalities_Verify h e (ev : Equalities C) pf (pfv : AggProof C) : zero_ok h -> rel_eqs h e ev -> rel_ap h pf pfv ->
    runs (m_Equalities_Verify e pf) h (Equalities_Verify ev pfv) (fun x h' x' => ext [mh_IPP pf] h h' /\ x = x').
  Proof.
    intros Z HE (Hπ & Hc & Hρ & HU & HV' & HΩ & HWa & HVa). pose proof HE as (HRO & HPP & HV & HW & HI & HJ).
    pose proof HPP as (HD & HG & HH & HF & HP). pose proof HP as (_ & _ & HG1 & HG2 & _).
    unfold m_Equalities_Verify, Equalities_Verify. cbv zeta. rewrite HRO, HD, (vals_length _ _ _ HV), HI, HJ, Hc, Hρ.
    rewrite !(m_poe_g2s_eq h _ _ _ _ HP), HG2.
    pose proof (ext_refl [mh_IPP pf] h) as E0.
    eapply runs_bind; [eapply runs_ro; vl|]. cbn beta. intros xl ? ? _ [-> ->]. pu x.
    eapply runs_bind; [eapply runs_ro; vl|]. cbn beta. intros ts ? ? _ [-> ->].
    pu g2sV. pu g2sW. pu te. pu to.
    news @runs_G1v_Mul s1. new @runs_G1v_Add A1 A1v. new @runs_MulV A2 A2v. rd @runs_InnerProd.
    news @runs_G1v_Mul s2. new @runs_G1v_Add B1 B1v. new @runs_MulV B2 B2v. rd @runs_InnerProd.
    ip. ix @runs_idx g10 g10v Vg10. pt t Vt. pu g2l. ip.
    apply (runs_if (geqb _ _)); intros _; [|apply runs_ret; auto].
    pu bb. start P A. madd A. add A. msum A. fin A. apply (rel_poe_ext _ _ _ _ _ E0) in HPP.
    eapply runs_bind; [eapply runs_poe_bpPP; exact HPP|]. cbn beta. intros pp ? ppv _ [E Hpp]. up E.
    eapply runs_step; [eapply (runs_ipp_set _ _ (ap_IPP pfv)); eassumption|]. cbn beta. intros ? hs [E Hπ'].
    apply (rel_bp_ext _ _ _ _ _ E) in Hpp. assert (E1 := ext_trans _ _ _ _ E0 E). clear E E0.
    eapply runs_post; [eapply runs_IPP_Verify; eassumption|]. cbn beta. intros r hz r' _ [E ->]. up E. auto.
  Qed.

  Lemma runs_poe_iter h e (ev : Equalities C) n vs ws coins k : zero_ok h -> rel_eqs h e ev ->
    runs (m_poe_iter e n vs ws coins k) h (poe_iter ev n vs ws coins k) (fun a h' b => ext [] h h' /\ rel_it h' a b).
  Proof.
    intros Z (HRO & (HD & HG & HH & HF & HP) & HV & HW & HI & HJ). pose proof HP as (_ & _ & HG1 & _ & _).
    unfold m_poe_iter, poe_iter. cbv zeta. rewrite HI, HJ. pose proof (ext_refl [] h) as E0.
    pu c. destruct c as [[uk ηk] νk]. pu Ik. pu Jk. ix @runs_idx gI gIv VgI. ix @runs_idxZ gn gnv Vgn.
    start Vk A. madd A. fin A. ix @runs_idx_last lI lIv VlI. pt Ωv VΩv. ix @runs_idx gJ gJv VgJ.
    start Wk B. madd B. fin B. ix @runs_idx_last lJ lJv VlJ. pt Ωw VΩw. pu vk.
    pose proof (rel_pp_ext _ _ _ _ _ E0 HP) as HP1.
    eapply runs_bind; [eapply runs_Open; [sd|exact HP1]|]. cbn beta. intros [? Ωp] ? [? Ωpv] _ (E & _ & VΩp). cbn [snd] in VΩp. up E.
    pu wk. pose proof (rel_pp_ext _ _ _ _ _ E0 HP) as HP2.
    eapply runs_bind; [eapply runs_Open; [sd|exact HP2]|]. cbn beta. intros [? Ωq] ? [? Ωqv] _ (E & _ & VΩq). cbn [snd] in VΩq. up E.
    apply runs_ret. split; [exact E0|]. split_and!; cbn; assumption.
  Qed.
  (** Equalities.Prove (poe/poe.go:131-236) *)
  Lemma runs_Equalities_Prove h e (ev : Equalities C) vs ws coins r1 r2 : zero_ok h -> rel_eqs h e ev ->
    runs (m_Equalities_Prove e vs ws coins r1 r2) h (Equalities_Prove ev vs ws coins r1 r2)
      (fun a h' b => ext [] h h' /\ rel_ap h' a b /\ whole h' (mh_IPP a) (ap_IPP b) /\ (length (mipps h) <= mh_IPP a)%nat).
  Proof.
    intros Z HE. pose proof HE as (HRO & HPP & HV & HW & HI & HJ). pose proof HPP as (HD & HG & HH & HF & HP).
    unfold m_Equalities_Prove, Equalities_Prove. cbv zeta. rewrite HRO, HD, (vals_length _ _ _ HV), (vals_length _ _ _ HW), HI.
    pose proof (ext_refl [] h) as E0.
    do 3 (apply runs_check; intros _). pu vs0.
    eapply runs_bind.
    { eapply (runs_mmapM rel_it _ _ h h).
      - intros h1 h2 a b E. apply rel_it_ext with (1 := E).
      - intros k h1 E. apply runs_poe_iter; [eapply zero_ok_ext; eassumption|eapply rel_eqs_ext; eassumption].
      - apply ext_refl. }
    cbn beta. intros its ? itsv _ [E HIT]. up E.
    assert (forall (f : mIter -> loc) (g : poeIter C -> G1 C) h, (forall a b, rel_it h a b -> val h (f a) (g b)) ->
      Forall2 (rel_it h) its itsv -> vals h (f <$> its) (g <$> itsv)) as HM.
    { clear. intros f g h Hf H. apply Forall2_fmap. eapply Forall2_impl; [exact H|]. exact Hf. }
    pose proof (HM mj_V it_V _ (fun a b (R : rel_it _ a b) => proj1 R) HIT) as VV.
    pose proof (HM mj_Ωv it_Ωv _ (fun a b (R : rel_it _ a b) => proj1 (proj2 R)) HIT) as VΩv.
    pose proof (HM mj_W it_W _ (fun a b (R : rel_it _ a b) => proj1 (proj2 (proj2 R))) HIT) as VW.
    pose proof (HM mj_Ωw it_Ωw _ (fun a b (R : rel_it _ a b) => proj1 (proj2 (proj2 (proj2 R)))) HIT) as VΩw.
    pose proof (HM mj_ΩvPP it_ΩvPP _ (fun a b (R : rel_it _ a b) => proj1 (proj2 (proj2 (proj2 (proj2 R))))) HIT) as VΩvPP.
    pose proof (HM mj_ΩwPP it_ΩwPP _ (fun a b (R : rel_it _ a b) => proj2 (proj2 (proj2 (proj2 (proj2 R))))) HIT) as VΩwPP.
    clear HM HIT.
    eapply runs_bind; [eapply runs_ro; vl|]. cbn beta. intros xl ? ? _ [-> ->]. pu x. pu v.
    start U A. msum A. fin A. start V B. msum B. fin B.
    eapply runs_bind; [eapply runs_ro; vl|]. cbn beta. intros ts ? ? _ [-> ->]. pu te. pu to.
    news @runs_G1v_Mul s1. new @runs_G1v_Add A1 A1v. apply runs_assoc. new @runs_MulV A2 A2v.
    eapply runs_bind; [eapply runs_Sum; sd|]. cbn beta. intros Ω ? Ωv _ AΩ.
    eapply runs_step; [eapply runs_G1v_Mul; sd|]. cbn beta. intros s2 ? [E Vs2]. push E. clear E.
    eapply runs_bind; [eapply runs_G1v_Add; sd|]. cbn beta. intros B1 ? B1v _ [E VB1]. push E. clear E.
    msum AΩ. fin AΩ.
    pu aa. pu bb. start P AP. madd AP. add AP. msum AP. fin AP.
    apply (rel_poe_ext _ _ _ _ _ E0) in HPP.
    eapply runs_bind; [eapply runs_poe_bpPP; exact HPP|]. cbn beta. intros pp ? ppv _ [E Hpp]. up E.
    eapply runs_bind; [eapply runs_NewInnerProdArgument; exact Hpp|]. cbn beta. intros arg ? argv _ [E Harg]. up E.
    pose proof (ext_ipps_length _ _ _ E0) as Hl0. destruct Harg as (R1 & R2 & R3 & R4 & R5).
    eapply runs_bind; [eapply runs_IPA_Prove|].
    { split_and!; cbn; eassumption. }
    cbn beta. intros π ? πv _ (E & Hl & Hπ). up E.
    pose proof Hπ as (o & Ho & _ & _ & _ & _ & HoC).
    match goal with |- runs _ ?hc _ _ => eapply (runs_step _ _ _ o _ (fun a h' b => h' = hc /\ a = b)); [exists o, hc; unfold ipp_get; rewrite Ho; auto|] end.
    intros ? ? [-> ->].
    apply runs_ret. cbn. split; [exact E0|]. split; [|split; [exact Hπ|lia]].
    split_and!; cbn; try assumption; try reflexivity. apply whole_core; exact Hπ.
  Qed.
End Poe.
