(** The memory-level verification of pol/pol.go compared with that of Model_pol. *)
From Verif Require Export Mem_poe.
Local Open Scope Zr_scope.

Ltac upr E := match type of E with ext _ ?h ?h' => repeat match goal with
  | H : rel_pp h _ _ |- _ => apply (rel_pp_ext _ _ _ _ _ E) in H
  | H : rel_poe h _ _ |- _ => apply (rel_poe_ext _ _ _ _ _ E) in H
  | H : rel_sum h _ _ |- _ => apply (rel_sum_ext _ _ _ _ _ E) in H
  end end; up E.
Tactic Notation "newr" constr(L) ident(t) ident(V) := eapply runs_step; [eapply L; sd|]; cbn beta;
  let E := fresh in intros t ? [E V]; upr E.

Section Pol.
  Context {C : Curve}.
  Local Notation mem := (mem C).
  Local Notation M := (M C).

  Definition rel_pol (h : mem) (p : mPolPP C) (q : PolPP C) : Prop :=
    rel_pp h (mk_PPPP p) (po_PPPP q) /\ rel_sum h (mk_SAPP p) (po_SAPP q) /\ rel_rppp h (mk_RPPP p) (po_RPPP q) /\
    rel_poe h (mk_POEPP p) (po_POEPP q) /\ mk_Fanout p = po_Fanout q.
  Lemma rel_pol_ext S h h' p q : ext S h h' -> rel_pol h p q -> rel_pol h' p q.
  Proof.
    intros E (?&?&?&?&?).
    split_and!; try assumption; (eapply rel_pp_ext || eapply rel_sum_ext || eapply rel_rppp_ext || eapply rel_poe_ext); eassumption.
  Qed.
  Definition rel_tp (h : mem) (p : mTotalProof) (q : TotalProof C) : Prop := val h (mx_proof p) (tp_proof q) /\ mx_Sum p = tp_Sum q.
  Definition rel_lp (h : mem) (p : mLiabilityProof) (q : LiabilityProof C) : Prop :=
    ml_Σ p = lp_Σ q /\ val h (ml_π p) (lp_π q) /\ rel_sp h (ml_sum p) (lp_sum q) /\ vals h (ml_V p) (lp_V q) /\ vals h (ml_W p) (lp_W q) /\
    ml_Digests p = lp_Digests q /\ Forall2 (rel_rp h) (ml_RangeProofs p) (lp_RangeProofs q) /\ rel_ap h (ml_Eq p) (lp_Eq q) /\
    rel_tp h (ml_Liability p) (lp_Liability q).
  Lemma rel_lp_ext S h h' p q : ext S h h' -> rel_lp h p q -> rel_lp h' p q.
  Proof.
    intros E (?&?&?&?&?&?&?&?&H1&H2).
    split_and!; try assumption; try ((eapply val_ext || eapply vals_ext || eapply rel_sp_ext || eapply rel_ap_ext); eassumption).
    - eapply Forall2_impl; [eassumption|]. intros a b. apply rel_rp_ext with (1 := E).
    - split; [eapply val_ext; eassumption|exact H2].
  Qed.

  (** TotalProof.Verify (pol/pol.go:274-277) *)
  Lemma runs_TotalProof_Verify h tp (tpv : TotalProof C) p q V Vv : rel_pol h p q -> rel_tp h tp tpv -> val h V Vv ->
    runs (m_TotalProof_Verify tp p V) h (TotalProof_Verify tpv q Vv) (fun e h' e' => h' = h /\ e = e').
  Proof.
    intros (HP & _ & _ & _ & HF) (Hπ & HS) HV. unfold m_TotalProof_Verify, TotalProof_Verify. rewrite HS, HF.
    apply runs_pp_Verify; assumption.
  Qed.

  Lemma runs_verify_digest h lp (lpv : LiabilityProof C) path i : rel_lp h lp lpv ->
    runs (m_verify_digest lp path i) h (verify_digest lpv path i) (fun e h' e' => h' = h /\ e = e').
  Proof.
    intros (_ & _ & _ & HV & HW & HD & _). unfold m_verify_digest, verify_digest. apply runs_if; intros _; [|apply runs_if; intros _].
    - unfold m_checkLeaf, checkCommitmentToLeafVertex. rewrite HD. ix @runs_idx V Vv VV. rd @runs_Bytes. pu x. pu d.
      apply runs_if; intros _; apply runs_ret; auto.
    - unfold m_checkInner, checkCommitmentToInnerVertex. rewrite HD. ix @runs_idx V Vv VV. ix @runs_idx W Wv VW.
      rd @runs_Bytes. rd @runs_Bytes. pu x. pu d. apply runs_if; intros _; apply runs_ret; auto.
    - apply runs_ret; auto.
  Qed.
  Lemma runs_verify_header h lp (lpv : LiabilityProof C) path V Vv W Wv : rel_lp h lp lpv -> val h V Vv -> val h W Wv ->
    runs (m_verify_header lp path V W) h (verify_header lpv path Vv Wv) (fun e h' e' => h' = h /\ e = e').
  Proof.
    intros (_ & _ & _ & HV & HW & HD & _) HV' HW'. unfold m_verify_header, verify_header. rewrite HD, (vals_length _ _ _ HW).
    apply runs_if; intros _; [|apply runs_ret; auto]. ix @runs_idx V0 V0v VV. rd @runs_Equals.
    apply runs_if; intros _; [|apply runs_ret; auto]. ix @runs_idx W0 W0v VW. rd @runs_Equals.
    apply runs_if; intros _; apply runs_ret; auto.
  Qed.
  (** Reading an element of a slice *)
  Lemma runs_idx_rel {A B} (R : A -> B -> Prop) (h : mem) l l' i : Forall2 R l l' ->
    runs (mlift (idx l i)) h (idx l' i) (fun a h' b => h' = h /\ R a b /\ l !! i = Some a).
  Proof.
    intros H. unfold idx. destruct (l' !! i) as [b|] eqn:Hb.
    - destruct (Forall2_lookup_r _ _ _ _ _ H Hb) as (a & Ha & HR). rewrite Ha. exists a, h. auto.
    - apply Forall2_length in H. assert (l !! i = None) as -> by (apply lookup_ge_None; apply lookup_ge_None in Hb; lia). reflexivity.
  Qed.
  Lemma runs_verify_args h lp (lpv : LiabilityProof C) path i : rel_lp h lp lpv ->
    runs (m_verify_args lp path i) h (verify_args lpv path i)
      (fun a h' b => h' = h /\ rel_rp h a.1 b.1 /\ ml_RangeProofs lp !! i = Some a.1 /\ val h a.2 b.2).
  Proof.
    intros (_ & _ & _ & HV & HW & HD & HR & _). unfold m_verify_args, verify_args.
    eapply (runs_bind _ _ _ _ _ (fun a h' b => h' = h /\ val h a b)).
    { destruct (i <? length path - 1)%nat; [|apply runs_idx; exact HV].
      pose proof (runs_idx h _ _ i HV) as H1. pose proof (runs_idx h _ _ (i + 1) HV) as H2. revert H1 H2. unfold runs, mlift.
      destruct (idx (lp_V lpv) i) as [b| |], (idx (ml_V lp) i) as [a| |]; cbn [rbind]; auto; try discriminate.
      all: intros (? & ? & X & _); discriminate X. }
    intros ? ? ? _ [-> _].
    eapply runs_bind; [eapply runs_idx_rel; exact HR|]. cbn beta. intros rp ? rpv _ (-> & H1 & H2).
    ix @runs_idx V Vv VV. apply runs_ret. auto.
  Qed.

  Lemma runs_verify_loop h lp (lpv : LiabilityProof C) p q path is stored : zero_ok h -> rel_pol h p q -> rel_lp h lp lpv ->
    runs (m_verify_loop p lp path is stored) h (verify_loop q lpv path is stored) (fun e h' e' => ext (mq_Π <$> ml_RangeProofs lp) h h' /\ e = e').
  Proof.
    revert h stored. induction is as [|i is IH]; intros h stored Z HP HL; cbn [m_verify_loop verify_loop].
    - apply runs_ret. split; [apply ext_refl|reflexivity].
    - eapply runs_bind; [eapply runs_verify_args; exact HL|]. cbn beta. intros [rp V] ? [rpv Vv] _ (-> & HR & Hi & HV). cbn [fst snd] in *.
      pose proof HP as (_ & _ & HRP & _).
      eapply runs_bind; [eapply runs_VerifyRange; eassumption|]. cbn beta. intros e h1 e' _ [E ->].
      apply (ext_weaken _ (mq_Π <$> ml_RangeProofs lp)) in E.
      2: { intros x Hx. apply elem_of_list_singleton in Hx as ->. apply elem_of_list_fmap. exists rp. split; [reflexivity|].
           apply elem_of_list_lookup. exists i. exact Hi. }
      clear HRP HR HV. apply (zero_ok_ext _ _ _ E) in Z. apply (rel_pol_ext _ _ _ _ _ E) in HP. apply (rel_lp_ext _ _ _ _ _ E) in HL.
      eapply runs_bind; [eapply runs_verify_digest; exact HL|]. cbn beta. intros x ? x' _ [-> ->].
      destruct x'; [|apply runs_ret; auto].
      eapply runs_post; [eapply IH; assumption|]. cbn beta. intros r h2 r' _ [E2 ->]. split; [eapply ext_trans; eassumption|reflexivity].
  Qed.

  Lemma vals_replicate h l (v : G1 C) n : val h l v -> vals h (replicate n l) (replicate n v).
  Proof. intros H. induction n; constructor; assumption. Qed.
  Lemma runs_verify_equalities h lp (lpv : LiabilityProof C) p q path : zero_ok h -> rel_pol h p q -> rel_lp h lp lpv ->
    runs (m_verify_equalities p lp path) h (verify_equalities q lpv path) (fun a h' b => ext [] h h' /\ rel_eqs h' a b).
  Proof.
    intros Z (HPP & _ & _ & HPOE & HF) (_ & _ & _ & HV & _). unfold m_verify_equalities, verify_equalities. cbv zeta. rewrite HF.
    eapply runs_bind; [eapply (runs_mapM_idx _ _ _ (fun i => i)); exact HV|]. cbn beta. intros V ? Vv _ [-> VV].
    eapply runs_bind; [eapply (runs_mapM_idx _ _ _ (fun i => i + 1)%nat); exact HV|]. cbn beta. intros W ? Wv _ [-> VW].
    eapply runs_bind; [eapply runs_Commit; eassumption|]. cbn beta. intros z h1 zv _ [E Vz].
    pu m. apply runs_ret. split; [exact E|]. apply (rel_poe_ext _ _ _ _ _ E) in HPOE. up E.
    split_and!; cbn; try assumption; try reflexivity; (apply Forall2_app; [assumption|apply vals_replicate; assumption]).
  Qed.
  Lemma runs_verify_arguments h lp (lpv : LiabilityProof C) p q path : zero_ok h -> rel_pol h p q -> rel_lp h lp lpv ->
    runs (m_verify_arguments p lp path) h (verify_arguments q lpv path)
      (fun e h' e' => ext [mt_π (ml_sum lp); mh_IPP (ml_Eq lp)] h h' /\ e = e').
  Proof.
    intros Z HP HL. unfold m_verify_arguments, verify_arguments. set (S := [_; _]).
    pose proof HP as (HPP & _). pose proof HL as (HΣ & Hπ & _ & _ & HW & _). rewrite HΣ.
    eapply runs_bind; [eapply runs_VerifyAggregation; eassumption|]. cbn beta. intros e h1 e' _ [E ->]. clear HPP Hπ HW.
    apply (ext_weaken_nil S) in E. rename E into E0. apply (zero_ok_ext _ _ _ E0) in Z. apply (rel_pol_ext _ _ _ _ _ E0) in HP. apply (rel_lp_ext _ _ _ _ _ E0) in HL.
    destruct e'; [|apply runs_ret; auto].
    pose proof HP as (_ & HS & _). pose proof HL as (_ & _ & Hs & HV & _).
    eapply runs_bind; [eapply runs_VerifyAggregated; eassumption|]. cbn beta. intros e h2 e' _ [E ->]. clear HS Hs HV.
    apply (ext_weaken _ S) in E; [|set_solver]. apply (zero_ok_ext _ _ _ E) in Z. apply (rel_pol_ext _ _ _ _ _ E) in HP. apply (rel_lp_ext _ _ _ _ _ E) in HL.
    pose proof (ext_trans _ _ _ _ E0 E) as E1. clear E0 E.
    destruct e'; [|apply runs_ret; auto].
    eapply runs_bind; [eapply runs_verify_equalities; eassumption|]. cbn beta. intros eqs h3 eqsv _ [E Heqs].
    apply (ext_weaken_nil S) in E. apply (zero_ok_ext _ _ _ E) in Z. apply (rel_lp_ext _ _ _ _ _ E) in HL. pose proof (ext_trans _ _ _ _ E1 E) as E2. clear E1 E.
    pose proof HL as (_ & _ & _ & _ & _ & _ & _ & Hap & _).
    eapply runs_bind; [eapply runs_Equalities_Verify; eassumption|]. cbn beta. intros e h4 e' _ [E ->].
    apply (ext_weaken _ S) in E; [|set_solver]. pose proof (ext_trans _ _ _ _ E2 E) as E3.
    destruct e'; apply runs_ret; auto.
  Qed.
  Lemma runs_verify_liability h lp (lpv : LiabilityProof C) p q path : rel_pol h p q -> rel_lp h lp lpv ->
    runs (m_verify_liability p lp path) h (verify_liability q lpv path) (fun e h' e' => h' = h /\ e = e').
  Proof.
    intros (HP & _) (_ & _ & _ & HV & _ & _ & _ & _ & Hπ & HS). unfold m_verify_liability, verify_liability. rewrite HS.
    ix @runs_idx_last V Vv VV. pu i. eapply runs_bind; [eapply runs_pp_Verify; eassumption|]. cbn beta. intros e ? e' _ [-> ->].
    destruct e'; apply runs_ret; auto.
  Qed.
  (** LiabilityProof.Verify (pol/pol.go:124-233) *)
  Lemma runs_LiabilityProof_Verify h lp (lpv : LiabilityProof C) p q id V Vv W Wv id2path :
    zero_ok h -> rel_pol h p q -> rel_lp h lp lpv -> val h V Vv -> val h W Wv ->
    runs (m_LiabilityProof_Verify lp p id V W id2path) h (LiabilityProof_Verify lpv q id Vv Wv id2path) (fun e h' e' => ext (ml_proofs lp) h h' /\ e = e').
  Proof.
    intros Z HP HL HV HW. unfold m_LiabilityProof_Verify, LiabilityProof_Verify. pose proof (ext_refl (ml_proofs lp) h) as E0.
    pu path. eapply runs_bind; [eapply runs_verify_header; eassumption|]. cbn beta. intros e ? e' _ [-> ->].
    destruct e'; [|apply runs_ret; auto].
    eapply runs_bind; [eapply runs_verify_loop; eassumption|]. cbn beta. intros r h1 r' _ [E ->].
    apply (ext_weaken _ (ml_proofs lp)) in E; [|unfold ml_proofs; set_solver].
    apply (zero_ok_ext _ _ _ E) in Z. apply (rel_pol_ext _ _ _ _ _ E) in HP. apply (rel_lp_ext _ _ _ _ _ E) in HL.
    destruct r' as [stored|e]; [|apply runs_ret; auto].
    eapply runs_bind; [eapply runs_verify_arguments; eassumption|]. cbn beta. intros x h2 x' _ [E2 ->].
    apply (ext_weaken _ (ml_proofs lp)) in E2; [|unfold ml_proofs; set_solver].
    apply (rel_pol_ext _ _ _ _ _ E2) in HP. apply (rel_lp_ext _ _ _ _ _ E2) in HL. pose proof (ext_trans _ _ _ _ E E2) as E3.
    destruct x'; [|apply runs_ret; auto]. destruct stored; [|apply runs_ret; auto].
    eapply runs_post; [eapply runs_verify_liability; eassumption|]. cbn beta. intros y ? y' _ [-> ->]. auto.
  Qed.

  (** ** Making the parameters *)
  Lemma runs_powers h (g : loc) (gv : G1 C) (α : Zr) l : val h g gv ->
    runs (mmapM (fun i => p_Mul g (zpow α i)) l) h (Ret ((fun i => gmul (zpow α i) gv) <$> l)) (fun a h' b => ext [] h h' /\ vals h' a b).
  Proof.
    intros H. rewrite <- (mapM_ret (fun i => Ret (gmul (zpow α i) gv)) (fun i => gmul (zpow α i) gv) l (fun _ _ => eq_refl)).
    eapply (runs_mmapM (fun h => val h) _ _ h h).
    - intros h1 h2 a b E. apply val_ext with (1 := E).
    - intros i h1 E. eapply runs_post; [eapply runs_Mul; eapply val_ext; eassumption|]. cbn beta. intros a h2 b _ A.
      split; [eapply acc_e; exact A|eapply acc_v; exact A].
    - apply ext_refl.
  Qed.
  Lemma runs_pp_NewPublicParams h N α : val h GenG1 (gen1 C) ->
    runs (m_pp_NewPublicParams N α) h (Ret (NewPublicParams (C:=C) N α)) (fun a h' b => ext [] h h' /\ rel_pp h' a b).
  Proof.
    intros HG. unfold m_pp_NewPublicParams, NewPublicParams. cbv zeta. pose proof (ext_refl [] h) as E0.
    eapply runs_step; [eapply runs_Copy; exact HG|]. cbn beta. intros g1 ? A. fin A.
    eapply runs_step; [eapply runs_powers; exact A|]. cbn beta. intros s1 ? [E V1]. up E.
    eapply runs_step; [eapply runs_Copy; exact HG|]. cbn beta. intros g ? B. fin B.
    eapply runs_step; [eapply runs_powers; exact A|]. cbn beta. intros s2 ? [E V2]. up E.
    eapply runs_step; [eapply runs_derefs; vl|]. cbn beta. intros vs ? [-> ->].
    apply runs_ret. split; [exact E0|]. split_and!; cbn; try reflexivity. vl.
  Qed.
  Lemma runs_poe_NewPublicParams h n m α : val h GenG1 (gen1 C) ->
    runs (m_poe_NewPublicParams n m α) h (poe_NewPublicParams (C:=C) n m α) (fun a h' b => ext [] h h' /\ rel_poe h' a b).
  Proof.
    intros HG. unfold m_poe_NewPublicParams, poe_NewPublicParams. pose proof (ext_refl [] h) as E0.
    eapply runs_step; [eapply runs_pp_NewPublicParams; exact HG|]. cbn beta. intros pp h1 [E HP]. up E.
    newr @runs_RandGenVec G VG. newr @runs_RandGenVec Hh VH. newr @runs_RandGenVec fs Vfs. ix @runs_idx F Fv VF.
    rd @runs_derefs. rd @runs_derefs. rd @runs_Bytes. apply runs_ret. split; [exact E0|].
    pose proof HP as (HD & _). rewrite HD. split_and!; cbn; try assumption; reflexivity.
  Qed.
  Lemma runs_sum_NewPublicParams h n : zero_ok h ->
    runs (m_sum_NewPublicParams n) h (sum_NewPublicParams (C:=C) n) (fun a h' b => ext [] h h' /\ rel_sum h' a b).
  Proof.
    intros Z. unfold m_sum_NewPublicParams, sum_NewPublicParams. pose proof (ext_refl [] h) as E0. cbv zeta.
    newr @runs_RandGenVec Gs VG. newr @runs_RandGenVec us Vus. ix @runs_idx U Uv VU. newr @runs_RandGenVec gs Vgs. ix @runs_idx G Gv VGg.
    newr @runs_RandGenVec fs Vfs. ix @runs_idx F Fv VF. newr @runs_RandGenVec Hh VH. pu b.
    apply runs_assoc. new @runs_MulV l lv. eapply runs_bind; [eapply runs_Sum; sd|]. cbn beta. intros B ? Bv _ A. fin A.
    apply runs_ret. split; [exact E0|]. split_and!; cbn; try assumption; reflexivity.
  Qed.
  Lemma rp_Digest_stored G H F Gs Hs Fs Gs' F' : rp_Digest (C:=C) (MkRPPP G H F' Gs' Hs Fs (rp_Digest (MkRPPP G H F Gs Hs Fs []))) =
    sha256 C (enc1 C G ++ enc1 C H ++ enc1 C F ++ G1v_Bytes Gs ++ G1v_Bytes Hs ++ G1v_Bytes Fs).
  Proof.
    unfold rp_Digest at 2. cbn [rp_digest length]. unfold rp_fresh_digest. cbn. unfold rp_Digest. cbn. rewrite sha256_len. reflexivity.
  Qed.
  Lemma runs_NewRangeProofPublicParams h n : 
    runs (m_NewRangeProofPublicParams n) h (NewRangeProofPublicParams (C:=C) n) (fun a h' b => ext [] h h' /\ rel_rppp h' a b /\
      mr_digest a = rp_digest b /\ rp_digest b <> []).
  Proof.
    unfold m_NewRangeProofPublicParams, NewRangeProofPublicParams. pose proof (ext_refl [] h) as E0. cbv zeta.
    newr @runs_RandGenVec gs Vgs. ix @runs_idx G Gv VG. newr @runs_RandGenVec hs Vhs. ix @runs_idx Hh Hv VH.
    newr @runs_RandGenVec fs Vfs. ix @runs_idx F Fv VF.
    newr @runs_RandGenVec Fs VFs. newr @runs_RandGenVec Hs VHs. newr @runs_RandGenVec Gs VGs.
    rd @runs_Bytes. rd @runs_Bytes. rd @runs_Bytes. rd @runs_derefs. rd @runs_derefs. rd @runs_derefs.
    apply runs_ret. split; [exact E0|]. split; [|split].
    - split_and!; try (cbn; assumption). rewrite rp_Digest_stored. reflexivity.
    - cbn [mr_digest rp_digest]. reflexivity.
    - cbn [rp_digest]. intros X. apply (f_equal length) in X. revert X. unfold rp_Digest. cbn [rp_digest length Nat.eqb]. unfold rp_fresh_digest. rewrite sha256_len. discriminate.
  Qed.
  (** GeneratePublicParams (pol/pol.go:64-101) *)
  Lemma runs_GeneratePublicParams h f t α : zero_ok h -> val h GenG1 (gen1 C) ->
    runs (m_GeneratePublicParams f t α) h (GeneratePublicParams (C:=C) f t α) (fun a h' b => ext [] h h' /\ a.1 = b.1 /\ rel_pol h' a.2 b.2).
  Proof.
    intros Z HG. unfold m_GeneratePublicParams, GeneratePublicParams. pose proof (ext_refl [] h) as E0. cbv zeta.
    pu ml. destruct ml as [m g]. pu m'.
    eapply runs_bind; [eapply runs_poe_NewPublicParams; exact HG|]. cbn beta. intros poe h1 poev _ [E HP]. upr E.
    eapply runs_bind; [eapply runs_sum_NewPublicParams; exact Z|]. cbn beta. intros sa h2 sav _ [E HS]. upr E.
    eapply runs_bind; [eapply runs_NewRangeProofPublicParams|]. cbn beta. intros rp h3 rpv _ (E & HR & HD & HD'). upr E.
    pose proof HP as (_ & _ & _ & _ & HPP). pose proof HPP as (_ & _ & HG1 & _).
    ix @runs_idx F Fv VF.
    eapply (runs_bind _ _ _ _ _ (fun a h' b => h' = h3 /\ vals h3 a b)).
    { pose proof (vals_length _ _ _ HG1) as Hl. unfold copy_n, runs, mlift. rewrite Hl. destruct (_ <=? _)%nat; [|reflexivity].
      eexists _, h3. split; [reflexivity|]. split; [reflexivity|]. apply Forall2_take. exact HG1. }
    intros Gs ? Gsv _ [-> VGs]. apply runs_ret. cbn. split; [exact E0|]. split; [reflexivity|].
    destruct HS as (S1 & S2 & S3 & S4 & S5 & S6), HR as (R1 & R2 & R3 & R4 & R5 & R6 & R7).
    split_and!; cbn; try assumption; try reflexivity.
    - split_and!; cbn; assumption.
    - split_and!; cbn; try assumption. unfold set_range_gens, rp_Digest. cbn. rewrite HD.
      destruct (rp_digest rpv) as [|]; [contradiction|reflexivity].
  Qed.
End Pol.
