(** Property C83: on which proofs the verifiers return, and which malformed proofs make them panic. *)
From Verif Require Import Prop_ir Sum_facts Poe_facts Pp_facts Ipa_facts Prop_ipa Prop_range Prop_sum Prop_poe Prop_rangesound Prop_sumsound Prop_poesound Prop_accept Prop_liability Pol_params Pol_run Toy.
Local Open Scope Zr_scope.

(** ** Specification *)
(** A proof has enough elements: the contents are arbitrary. *)
Definition range_shape {C : Curve} (k : nat) (rp : RangeProof C) : Prop :=
  (k <= length (rp_Δ rp))%nat /\ (2 * (k + 6) <= length (ipp_LRs (rp_Π rp)))%nat.
Definition sum_shape {C : Curve} (k : nat) (p : sumProof C) : Prop := (2 * k <= length (ipp_LRs (sm_π p)))%nat.
Definition equality_shape {C : Curve} (j : nat) (p : AggProof C) : Prop :=
  (2 ^ j <= length (ap_Vaggr p))%nat /\ (2 ^ j <= length (ap_Waggr p))%nat /\ (2 * j <= length (ipp_LRs (ap_IPP p)))%nat.
(** For paths of length n, fanout 2^k-1 and parameters for 2^j equalities.  Nothing about lp_W and lp_Digests, whose numbers the
    verifier checks. *)
Definition liability_shape {C : Curve} (n k j : nat) (lp : LiabilityProof C) : Prop :=
  (n <= length (lp_V lp))%nat /\ (n <= length (lp_RangeProofs lp))%nat /\ Forall (range_shape k) (take n (lp_RangeProofs lp)) /\
  sum_shape k (lp_sum lp) /\ equality_shape j (lp_Eq lp).
(** What the verifier tests before anything else: the number of digest commitments and of digests, and the root. *)
Definition header_passes {C : Curve} (n : nat) (V W : G1 C) (lp : LiabilityProof C) : Prop :=
  length (lp_W lp) = (n - 1)%nat /\ length (lp_Digests lp) = n /\ lp_V lp !! 0%nat = Some V /\ lp_W lp !! 0%nat = Some W.

(** ** Each verifier *)
Theorem C83_range_returns : forall (C : Curve) (pp : RPPP C) k rp V,
  params_for k pp -> range_shape k rp -> exists e, VerifyRange pp rp V = Ret e.
Proof. intros C pp k rp V Hp [H1 H2]. destruct (C65_acceptance C pp k rp V Hp H1 H2) as (e & He & _). by exists e. Qed.

Theorem C83_sum_returns : forall (C : Curve) (pp : sumPP C) k p V,
  sum_params k pp -> sum_shape k p -> V <> [] -> exists e, sum_VerifyAggregated p pp V = Ret e.
Proof.
  intros C pp k p V (HG & HH & Hb & HB) Hp HV. rewrite C70_acceptance by done. unfold sum_Verify, randomOracleCVW.
  rewrite fe_sha. cbn [rbind]. rewrite sum_ipaPP_spec by lia. cbn [rbind]. apply (C15_enough_returns C _ k); done.
Qed.

Theorem C83_equality_returns : forall (C : Curve) N j α (pp : poePP C) (V W : list (G1 C)) I J p,
  poe_params N (2 ^ j) α pp -> equality_shape j p ->
  Forall (fun l => length l = (2 ^ j)%nat) [V; W] -> Forall (fun l => length l = (2 ^ j)%nat /\ Forall (fun i => i < N)%nat l) [I; J] ->
  exists e, Equalities_Verify (MkEqs poe_RO pp V W I J) p = Ret e.
Proof.
  intros C N k α pp V W I J p (Hpp & HG & HH) (LV' & LW' & HL) Hl HIJ.
  rewrite !Forall_cons in Hl. destruct Hl as (LV & LW & _). rewrite !Forall_cons in HIJ. destruct HIJ as ((LI & HI) & (LJ & HJ) & _).
  assert (Hk : (1 <= 2 ^ k)%nat) by (pose proof (Nat.pow_nonzero 2 k); lia).
  assert (HN : (1 <= N)%nat). { destruct I as [|i I]; [cbn in LI; lia|]. apply Forall_cons in HI. lia. }
  unfold Equalities_Verify. cbn [es_RO es_PP es_V es_W es_I es_J]. rewrite !poe_RO_spec.
  cbn [rbind seq fmap list_fmap idx lookup list_lookup]. rewrite LV.
  set (x := fe _). set (ts := _ <$> seq 0 (2 * 2 ^ k)). assert (Lts : length ts = (2 * 2 ^ k)%nat) by (unfold ts; rewrite fmap_length, seq_length; done).
  destruct (evens_odds_length ts _ Lts) as [Le Lo]. generalize dependent ts. intros ts Lts Le Lo. generalize x. clear x. intros x.
  rewrite Hpp, !poe_g2s_spec by done. cbn [rbind].
  assert (Hev : Nat.even (length ts) = true) by (rewrite Lts; apply Nat.even_spec; exists (2 ^ k)%nat; lia).
  unfold Vec_Evens, Vec_Odds. rewrite Hev. cbn [rbind].
  rewrite !g1v_mul_spec, !g1v_add_spec by (rewrite gvscale_length; lia). cbn [rbind].
  assert (La : forall A B : list (G1 C), length A = (2 ^ k)%nat -> (2 ^ k <= length B)%nat -> length (gvadd A (gvscale x B)) = (2 ^ k)%nat).
  { intros A B HA HB. unfold gvadd. rewrite zip_with_length, gvscale_length. lia. }
  rewrite !g1v_mulv_spec by (rewrite La; lia). cbn [rbind].
  rewrite !g1v_innerprod_spec by (first [apply nonempty_len|idtac]; rewrite gvmul_length, ?fmap_length, ?La; rewrite ?La; lia).
  cbn [rbind]. rewrite g1v_innerprod_1. cbn [rbind]. rewrite g1_idx by lia. cbn [rbind]. rewrite g2_last by lia. cbn [rbind]. rewrite g1v_innerprod_1. cbn [rbind].
  destruct (geqb _ _); [|by eexists].
  rewrite vec_add_spec by lia. cbn [rbind]. rewrite mulv_sum by (first [rewrite vadd_length; lia|apply nonempty_len; lia]). cbn [rbind].
  unfold poe_bpPP. cbn [RandGenVec seq fmap list_fmap idx rbind lookup list_lookup].
  unfold RecomputeDigest. rewrite setup_digest_spec by (right; cbn [bp_G bp_H]; lia). cbn [rbind bp_G bp_H bp_U]. fold (poe_ipa pp).
  apply (C15_enough_returns C (poe_ipa pp) k); done.
Qed.

(** The proof of the total has a fixed shape. *)
Theorem C83_total_returns : forall (C : Curve) F α n k (pp : PolPP C) (tp : TotalProof C) V,
  params_ok F α n k pp -> exists e, TotalProof_Verify tp pp V = Ret e.
Proof.
  intros C F α n k pp tp V (_ & _ & HF & HP & _). unfold TotalProof_Verify, Verify. rewrite HP, HF, g2_at_spec by lia. cbn [rbind].
  rewrite !g1v_innerprod_1. cbn [rbind]. destruct (geqb _ _); by eexists.
Qed.

(** ** The liability proof *)
Lemma verify_returns {C : Curve} N α mi π Cm i : (i < N)%nat -> exists e, Verify (C:=C) (NewPublicParams N α) mi π Cm i = Ret e.
Proof. intros Hi. unfold Verify. rewrite g2_at_spec by done. cbn [rbind]. rewrite !g1v_innerprod_1. cbn [rbind]. destruct (geqb _ _); by eexists. Qed.
Lemma verify_aggregation_returns {C : Curve} N α ixs (cs : list (G1 C)) π S : Forall (fun i => i < N)%nat ixs -> length ixs = length cs -> cs <> [] ->
  exists e, VerifyAggregation (NewPublicParams N α) ixs cs π S RO = Ret e.
Proof.
  intros Hi Hl Hne. unfold VerifyAggregation.
  rewrite (mapM_ret _ (fun i => fe (sha256 C (pp_Digest (NewPublicParams N α) ++ [(Z.of_nat i mod 256)%Z] ++ concat (enc1 C <$> cs))))) by (intros i _; apply RO_spec). cbn [rbind].
  rewrite (mapM_ret _ (fun i => gmul (α ^ (N - i)) (gen2 C))) by (intros i Hin; apply g2_at_spec; rewrite Forall_forall in Hi; by apply Hi). cbn [rbind].
  rewrite g2v_mulv_spec by (rewrite !fmap_length, seq_length; done). cbn [rbind].
  rewrite g1v_innerprod_spec; [|rewrite zip_with_length, !fmap_length, seq_length; lia|done]. cbn [rbind]. rewrite g1v_innerprod_1. cbn [rbind].
  destruct (geqb _ _); by eexists.
Qed.
Lemma idx_lt {A} (l : list A) i : (i < length l)%nat -> exists x, idx l i = Ret x.
Proof. intros H. destruct (lookup_lt_is_Some_2 l i H) as [x Hx]. exists x. by apply idx_ret. Qed.
Lemma idxZ_lt {A} (l : list A) i : (i < length l)%nat -> (1 <= i)%nat -> exists x, idxZ l (Z.of_nat i - 1) = Ret x.
Proof. intros H Hi. destruct (idx_lt l (i - 1)) as [x Hx]; [lia|]. exists x. replace (Z.of_nat i - 1)%Z with (Z.of_nat (i - 1)) by lia. unfold idxZ. rewrite (proj2 (Z.ltb_ge _ _)) by lia. rewrite Nat2Z.id. exact Hx. Qed.

Section Loop.
  Context {C : Curve} (F : nat) (α : Zr) (n k : nat) (pp : PolPP C) (lp : LiabilityProof C) (p : path).
  Hypothesis Hp : params_ok F α n k pp.
  Hypothesis Hn : (2 <= n)%nat.
  Hypothesis Hlen : length p = n.
  Hypothesis HV : (n <= length (lp_V lp))%nat.
  Hypothesis HR : (n <= length (lp_RangeProofs lp))%nat.
  Hypothesis HRs : Forall (range_shape k) (take n (lp_RangeProofs lp)).
  Hypothesis HW : length (lp_W lp) = (n - 1)%nat.
  Hypothesis HD : length (lp_Digests lp) = n.

  Lemma verify_args_returns i : (i < n)%nat -> exists rp V, verify_args lp p i = Ret (rp, V) /\ range_shape k rp.
  Proof.
    intros Hi. unfold verify_args. destruct (idx_lt (lp_V lp) i ltac:(lia)) as [V EV]. destruct (idx_lt (lp_RangeProofs lp) i ltac:(lia)) as [rp Er].
    rewrite EV, Er. assert (HS : range_shape k rp).
    { apply idx_inv in Er. apply (Forall_lookup_1 _ _ i _ HRs). rewrite lookup_take by done. exact Er. }
    rewrite Hlen. destruct (i <? n - 1)%nat eqn:E; cbn [rbind].
    - apply Nat.ltb_lt in E. destruct (idx_lt (lp_V lp) (i + 1) ltac:(lia)) as [V' EV']. rewrite EV'. cbn [rbind]. by eexists _, _.
    - by eexists _, _.
  Qed.
  Lemma verify_digest_returns i : (i < n)%nat -> exists e, verify_digest lp p i = Ret e.
  Proof.
    intros Hi. unfold verify_digest. rewrite Hlen. destruct (idx_lt (lp_V lp) i ltac:(lia)) as [V EV]. destruct (i =? n - 1)%nat eqn:E.
    - apply Nat.eqb_eq in E. destruct (idxZ_lt (lp_Digests lp) i ltac:(lia) ltac:(lia)) as [d Ed]. unfold checkCommitmentToLeafVertex. rewrite EV. cbn [rbind].
      rewrite fe_sha. cbn [rbind]. rewrite Ed. cbn [rbind]. destruct (zeqb _ _); by eexists.
    - apply Nat.eqb_neq in E. destruct (0 <? i)%nat eqn:E'; [|by eexists]. apply Nat.ltb_lt in E'.
      destruct (idxZ_lt (lp_Digests lp) i ltac:(lia) ltac:(lia)) as [d Ed]. destruct (idx_lt (lp_W lp) i ltac:(lia)) as [W EW].
      unfold checkCommitmentToInnerVertex. rewrite EV. cbn [rbind]. rewrite EW. cbn [rbind]. rewrite fe_sha. cbn [rbind]. rewrite Ed. cbn [rbind]. destruct (zeqb _ _); by eexists.
  Qed.
  Lemma verify_loop_returns is : Forall (fun i => i < n)%nat is -> forall stored, exists r, verify_loop pp lp p is stored = Ret r.
  Proof.
    induction is as [|i is IH]; intros Hi stored; [by eexists|]. apply Forall_cons in Hi as [Hi His]. cbn [verify_loop].
    destruct (verify_args_returns i Hi) as (rp & V & -> & Hs). cbn [rbind].
    destruct Hp as (_ & _ & _ & _ & Hr & _). destruct (C83_range_returns C _ k rp V Hr Hs) as [e ->]. cbn [rbind].
    destruct (verify_digest_returns i Hi) as [e' ->]. cbn [rbind]. destruct e'; [apply IH, His|by eexists].
  Qed.
End Loop.

(** The verifier returns, with or without an error, for every proof with enough elements, whatever they are. *)
Theorem C83_liability_returns : forall (C : Curve) F α n k j (pp : PolPP C) (lp : LiabilityProof C) id V W id2path p,
  params_ok F α n k pp -> length (pe_G (po_POEPP pp)) = (2 ^ j)%nat -> (2 <= n)%nat ->
  id2path id = Ret p -> length p = n -> Forall (fun i => i < F)%nat p ->
  liability_shape n k j lp -> exists e, LiabilityProof_Verify lp pp id V W id2path = Ret e.
Proof.
  intros C F α n k j pp lp id V W id2path p Hp Hj Hn Hid Hlen HpF (HV & HR & HRs & Hs & He).
  unfold LiabilityProof_Verify. rewrite Hid. cbn [rbind]. unfold verify_header. rewrite Hlen.
  destruct ((_ =? _)%Z && _) eqn:EH; [|by eexists]. cbn [rbind].
  apply andb_true_iff in EH as [EW ED]. apply Z.eqb_eq in EW. apply Nat.eqb_eq in ED. assert (HW : length (lp_W lp) = (n - 1)%nat) by lia.
  destruct (idx_lt (lp_V lp) 0 ltac:(lia)) as [V0 EV0]. destruct (idx_lt (lp_W lp) 0 ltac:(lia)) as [W0 EW0]. rewrite EV0. cbn [rbind].
  destruct (geqb V0 V); [|by eexists]. rewrite EW0. cbn [rbind]. destruct (geqb W0 W); [|by eexists]. cbn [rbind].
  destruct (verify_loop_returns F α n k pp lp p Hp Hn Hlen HV HR HRs HW ED (seq 0 n)) with (stored := nil_error) as [r ->].
  { apply Forall_forall. intros i Hi%elem_of_seq. lia. }
  cbn [rbind]. destruct r as [stored|e]; [|by eexists].
  destruct Hp as (HF & Hk & HFan & HPP & Hrp & Hsp & _ & _ & _ & _ & j' & Hj' & Hpoe & Hnj & Hpad).
  assert (j' = j) as ->. { destruct Hpoe as (_ & HG & _). apply (Nat.pow_inj_r 2); [lia|]. congruence. }
  assert (EQ : exists e, verify_arguments pp lp p = Ret e).
  { unfold verify_arguments. rewrite HPP.
    destruct (verify_aggregation_returns (F + 2) α (take (length p - 1) p) (lp_W lp) (lp_π lp) (lp_Σ lp)) as [e ->].
    { apply Forall_take. eapply Forall_impl; [exact HpF|]. cbn beta. intros i Hi. lia. }
    { rewrite take_length. lia. }
    { intros E. rewrite E in HW. cbn in HW. lia. }
    cbn [rbind]. destruct e; [|by eexists].
    destruct (C83_sum_returns C (po_SAPP pp) k (lp_sum lp) (lp_V lp) Hsp Hs) as [e ->]. { intros E. rewrite E in HV. cbn in HV. lia. }
    cbn [rbind]. destruct e; [|by eexists]. unfold verify_equalities. rewrite Hlen.
    destruct (mapM_total (fun i => idx (lp_V lp) i) (seq 0 (n - 1))) as [Vs EVs]. { intros i Hi%elem_of_seq. apply idx_lt. lia. }
    destruct (mapM_total (fun i => idx (lp_V lp) (i + 1)) (seq 0 (n - 1))) as [Ws EWs]. { intros i Hi%elem_of_seq. apply idx_lt. lia. }
    rewrite EVs. cbn [rbind]. rewrite EWs. cbn [rbind]. rewrite HPP, HFan, commit_spec by (rewrite ?replicate_length; lia). cbn [rbind]. rewrite Hpad. cbn [rbind].
    apply mapM_length in EVs, EWs. rewrite seq_length in EVs, EWs.
    destruct (C83_equality_returns C (F + 2) j α (po_POEPP pp) (Vs ++ replicate (2 ^ j - (n - 1)) (commitment (F + 2) α (replicate (F + 2) (IntToZr 0)))) (Ws ++ replicate (2 ^ j - (n - 1)) (commitment (F + 2) α (replicate (F + 2) (IntToZr 0))))
      (take (n - 1) p ++ replicate (2 ^ j - (n - 1)) 0%nat) (replicate (n - 1) F ++ replicate (2 ^ j - (n - 1)) 0%nat) (lp_Eq lp) Hpoe He) as [e ->].
    { repeat constructor; rewrite app_length, replicate_length; lia. }
    { repeat constructor; rewrite ?app_length, ?replicate_length, ?take_length; try lia; apply Forall_app; (split; [|apply Forall_replicate; lia]).
      - apply Forall_take. eapply Forall_impl; [exact HpF|]. cbn beta. intros i Hi. lia.
      - apply Forall_replicate. lia. }
    cbn [rbind]. destruct e; by eexists. }
  destruct EQ as [e ->]. cbn [rbind]. destruct e; [|by eexists]. destruct stored; [|by eexists]. unfold verify_liability, idx_last. rewrite HPP.
  assert (EL : forall A (l : list A), (1 <= length l)%nat -> exists x, idxZ l (Z.of_nat (length l) - 1 - Z.of_nat 0) = Ret x /\ x ∈ l).
  { intros A l Hl. destruct (idx_lt l (length l - 1) ltac:(lia)) as [x Hx]. exists x. split; [|apply idx_inv in Hx; by eapply elem_of_list_lookup_2].
    unfold idxZ. rewrite (proj2 (Z.ltb_ge _ _)) by lia. rewrite <- Hx. f_equal. lia. }
  destruct (EL _ (lp_V lp) ltac:(lia)) as (v & -> & _). cbn [rbind]. destruct (EL _ p ltac:(lia)) as (i & -> & Hin). cbn [rbind].
  destruct (verify_returns (C:=C) (F + 2) α (IntToZr (tp_Sum (lp_Liability lp))) (tp_proof (lp_Liability lp)) v i) as [e ->].
  { rewrite Forall_forall in HpF. specialize (HpF i Hin). lia. }
  cbn [rbind]. destruct e; by eexists.
Qed.

(** ** Proofs with too few elements *)
Section Short.
  Context {C : Curve}.
  (** The proof with other commitments, range proofs, sum proof or equality proof; a range proof or inner-product proof cut off *)
  Definition with_V (lp : LiabilityProof C) l := MkLP (lp_Σ lp) (lp_π lp) (lp_sum lp) l (lp_W lp) (lp_Digests lp) (lp_RangeProofs lp) (lp_Eq lp) (lp_Liability lp).
  Definition with_ranges (lp : LiabilityProof C) l := MkLP (lp_Σ lp) (lp_π lp) (lp_sum lp) (lp_V lp) (lp_W lp) (lp_Digests lp) l (lp_Eq lp) (lp_Liability lp).
  Definition with_sum (lp : LiabilityProof C) s := MkLP (lp_Σ lp) (lp_π lp) s (lp_V lp) (lp_W lp) (lp_Digests lp) (lp_RangeProofs lp) (lp_Eq lp) (lp_Liability lp).
  Definition with_Eq (lp : LiabilityProof C) e := MkLP (lp_Σ lp) (lp_π lp) (lp_sum lp) (lp_V lp) (lp_W lp) (lp_Digests lp) (lp_RangeProofs lp) e (lp_Liability lp).
  Definition cut_ipp (m : nat) (π : IPProof C) : IPProof C := MkIPP (take m (ipp_LRs π)) (ipp_a π) (ipp_b π) (ipp_P π) (ipp_C π).
  Definition cut_rounds (m : nat) (rp : RangeProof C) : RangeProof C :=
    MkRP (take m (rp_Δ rp)) (rp_u rp) (rp_W rp) (rp_γ rp) (rp_Π rp) (rp_c rp) (rp_Q rp) (rp_R rp) (rp_C1 rp) (rp_C2 rp) (rp_τ rp) (rp_ρ rp).
  Definition cut_inner (m : nat) (rp : RangeProof C) : RangeProof C :=
    MkRP (rp_Δ rp) (rp_u rp) (rp_W rp) (rp_γ rp) (cut_ipp m (rp_Π rp)) (rp_c rp) (rp_Q rp) (rp_R rp) (rp_C1 rp) (rp_C2 rp) (rp_τ rp) (rp_ρ rp).
  Definition cut_sum (m : nat) (p : sumProof C) : sumProof C := MkSumProof (sm_W p) (sm_c p) (sm_ρ p) (cut_ipp m (sm_π p)).
  Definition cut_Eq (m mV mW : nat) (p : AggProof C) : AggProof C :=
    MkAP (cut_ipp m (ap_IPP p)) (ap_c p) (ap_ρ p) (ap_U p) (ap_V p) (ap_Ω p) (take mW (ap_Waggr p)) (take mV (ap_Vaggr p)).

  Lemma ir_rounds_dec xs (V : G1 C) Δ : ir_rounds xs V Δ \/ ~ ir_rounds xs V Δ.
  Proof.
    revert V Δ. induction xs as [|x xs IH]; intros V [|[[A B] V'] Δ]; [left; done..|]. cbn [ir_rounds].
    destruct (geqb V' (gadd (gadd V (gmul x A)) (gmul (zinv x) B))) eqn:E; [apply geqb_eq in E|apply geqb_neq in E; right; intros [H _]; done].
    destruct (IH V' Δ) as [H|H]; [left; done|right; intros [_ H']; done].
  Qed.
  Lemma ir_rounds_take D (V : G1 C) Δ k m : (m <= k)%nat -> ir_rounds (ir_chal D V (take k Δ)) V Δ -> ir_rounds (ir_chal D V (take m Δ)) V (take m Δ).
  Proof.
    revert V Δ k. induction m as [|m IH]; intros V [|[[A B] V'] Δ] [|k] Hm H; try done; [lia|]. cbn [take ir_chal ir_rounds] in *. destruct H as [H1 H2]. split; [exact H1|].
    apply (IH _ _ k); [lia|exact H2].
  Qed.
  Lemma iterative_of_range k (pp : RPPP C) rp V : params_for k pp -> VerifyRange pp rp V = Ret nil_error ->
    exists q, IterativeVerify (rg_rdx pp) (rv_U pp rp V) (rp_Δ rp) (rp_u rp) = Ret (inl q).
  Proof.
    intros Hp H. unfold VerifyRange in H. apply rbind_inv in H as ([rp' e] & H & He). unfold VerifyRange_st in H. rewrite rangeProofRO1_spec in H. cbn [rbind] in H. rewrite ppRdx_spec in H. cbn [rbind] in H.
    fold (rv_x pp rp V) in H. fold (rg_U pp V (rp_W rp) (rp_γ rp) (rv_x pp rp V)) in H. fold (rv_U pp rp V) in H.
    apply rbind_inv in H as (ir & Hir & H). destruct ir as [q|msg]; [by exists q|]. injection H as <- <-. cbn in He. discriminate He.
  Qed.
  Lemma range_panics (pp : RPPP C) rp V : IterativeVerify (rg_rdx pp) (rv_U pp rp V) (rp_Δ rp) (rp_u rp) = Panic -> VerifyRange pp rp V = Panic.
  Proof.
    intros H. unfold VerifyRange, VerifyRange_st. rewrite rangeProofRO1_spec. cbn [rbind]. rewrite ppRdx_spec. cbn [rbind].
    fold (rv_x pp rp V). fold (rg_U pp V (rp_W rp) (rp_γ rp) (rv_x pp rp V)). fold (rv_U pp rp V). rewrite H. done.
  Qed.
  Lemma range_accepted_shape k (pp : RPPP C) rp V : params_for k pp -> VerifyRange pp rp V = Ret nil_error -> range_shape k rp.
  Proof.
    intros Hp H. destruct (iterative_of_range k pp rp V Hp H) as [q Hq]. pose proof (params_for_wf k pp Hp) as Hwf. pose proof Hp as (Hk & HG & HH & HF).
    assert (HΔ : (k <= length (rp_Δ rp))%nat).
    { apply Nat.nlt_ge. intros Hlt. destruct (C19_too_few C (rg_rdx pp) k (rv_U pp rp V) (rp_Δ rp) (rp_u rp) HG Hk Hlt) as [H1 H2].
      destruct (ir_rounds_dec (ir_challenges (rg_rdx pp) (rv_U pp rp V) (rp_Δ rp)) (rv_U pp rp V) (rp_Δ rp)) as [HR|HR]; [rewrite (H1 HR) in Hq; discriminate Hq|destruct (H2 HR) as [msg Hm]; rewrite Hm in Hq; discriminate Hq]. }
    split; [exact HΔ|]. apply Nat.nlt_ge. intros Hlt. unfold VerifyRange in H. rewrite (verify_range_st_spec k) in H by done. rewrite Hq in H. cbn [rbind] in H.
    rewrite (C15_too_few_panics C (rg_ipa pp (rv_y0 pp rp V)) (k + 6)) in H; [discriminate H|..].
    - destruct Hwf as (_ & _ & HH' & _). cbn [rg_ipa bp_G]. rewrite HH', rp_len. done.
    - destruct Hwf as (_ & _ & _ & HF'). cbn [rg_ipa bp_H]. rewrite rg_Fp_length, HF', rp_len. done.
    - exact Hlt.
  Qed.
  Lemma range_cut_rounds k m (pp : RPPP C) rp V : params_for k pp -> VerifyRange pp rp V = Ret nil_error -> (m < k)%nat -> VerifyRange pp (cut_rounds m rp) V = Panic.
  Proof.
    intros Hp H Hm. destruct (iterative_of_range k pp rp V Hp H) as [q Hq]. destruct (range_accepted_shape k pp rp V Hp H) as [HΔ _]. destruct Hp as (Hk & HG & _).
    apply range_panics. change (rv_U pp (cut_rounds m rp) V) with (rv_U pp rp V). cbn [cut_rounds rp_Δ rp_u].
    destruct (iterative_verify_spec k (rg_rdx pp) (rv_U pp rp V) (rp_Δ rp) (rp_u rp) HG Hk HΔ) as (res & Hres & Hc). rewrite Hq in Hres. injection Hres as <-.
    destruct Hc as [(Hr & _ & _)|(_ & msg & E)]; [|discriminate E].
    apply (C19_too_few C (rg_rdx pp) k); [exact HG|exact Hk|rewrite take_length; lia|]. apply (ir_rounds_take _ _ _ k); [lia|exact Hr].
  Qed.
  Lemma range_cut_inner k m (pp : RPPP C) rp V : params_for k pp -> VerifyRange pp rp V = Ret nil_error -> (m < 2 * (k + 6))%nat -> VerifyRange pp (cut_inner m rp) V = Panic.
  Proof.
    intros Hp H Hm. destruct (iterative_of_range k pp rp V Hp H) as [q Hq]. destruct (range_accepted_shape k pp rp V Hp H) as [HΔ _]. pose proof (params_for_wf k pp Hp) as Hwf.
    unfold VerifyRange. rewrite (verify_range_st_spec k) by done. change (rv_U pp (cut_inner m rp) V) with (rv_U pp rp V). cbn [cut_inner rp_Δ rp_u]. rewrite Hq. cbn [rbind].
    rewrite (C15_too_few_panics C (rg_ipa pp (rv_y0 pp (cut_inner m rp) V)) (k + 6)); [done|..].
    - destruct Hwf as (_ & _ & HH' & _). cbn [rg_ipa bp_G]. rewrite HH', rp_len. done.
    - destruct Hwf as (_ & _ & _ & HF'). cbn [rg_ipa bp_H]. rewrite rg_Fp_length, HF', rp_len. done.
    - cbn [rv_Π ipp_LRs cut_inner cut_ipp rp_Π]. rewrite take_length. lia.
  Qed.
  Lemma sum_short k (pp : sumPP C) p V : sum_params k pp -> V <> [] -> (length (ipp_LRs (sm_π p)) < 2 * k)%nat -> sum_VerifyAggregated p pp V = Panic.
  Proof.
    intros (HG & HH & Hb & HB) HV Hp. rewrite C70_acceptance by done. unfold sum_Verify, randomOracleCVW.
    rewrite fe_sha. cbn [rbind]. rewrite sum_ipaPP_spec by lia. cbn [rbind]. apply (C15_too_few_panics C _ k); done.
  Qed.

  Definition iteration_passes (pp : PolPP C) lp p i : Prop :=
    (exists rp V, verify_args lp p i = Ret (rp, V) /\ VerifyRange (po_RPPP pp) rp V = Ret nil_error) /\ verify_digest lp p i = Ret nil_error.
  Definition iteration_panics (pp : PolPP C) (lp : LiabilityProof C) p i : Prop :=
    verify_args lp p i = Panic \/ exists rp V, verify_args lp p i = Ret (rp, V) /\ VerifyRange (po_RPPP pp) rp V = Panic.
  Lemma verify_loop_panics (pp : PolPP C) lp p i n : (i < n)%nat -> (forall i', (i' < i)%nat -> iteration_passes pp lp p i') -> iteration_panics pp lp p i ->
    forall st, verify_loop pp lp p (seq 0 n) st = Panic.
  Proof.
    intros Hi Hpass Hpan. assert (G : forall d s m st, (s + d = i)%nat -> (d < m)%nat -> verify_loop pp lp p (seq s m) st = Panic); [|intros st; apply (G i 0%nat n st); lia].
    induction d as [|d IH]; intros s [|m] st Hs Hm; try lia; cbn [seq verify_loop].
    - replace s with i by lia. destruct Hpan as [->|(rp & V & -> & Hr)]; [done|]. cbn [rbind]. rewrite Hr. done.
    - destruct (Hpass s ltac:(lia)) as [(rp & V & -> & Hr) Hd]. cbn [rbind]. rewrite Hr. cbn [rbind]. rewrite Hd. cbn [rbind]. apply IH; lia.
  Qed.
  Lemma accepted_iterations (pp : PolPP C) lp id V W id2path p : id2path id = Ret p -> LiabilityProof_Verify lp pp id V W id2path = Ret nil_error ->
    verify_header lp p V W = Ret nil_error /\ (forall i, (i < length p)%nat -> iteration_passes pp lp p i) /\ verify_loop pp lp p (seq 0 (length p)) nil_error = Ret (inl nil_error) /\
    verify_arguments pp lp p = Ret nil_error.
  Proof.
    intros Hid H. unfold LiabilityProof_Verify in H. rewrite Hid in H. cbn [rbind] in H. apply rbind_inv in H as (e & H1 & H). destruct e; [|done].
    apply rbind_inv in H as (rr & H2 & H). destruct rr as [st|e]; [|injection H as ->; by apply verify_loop_inr in H2].
    apply rbind_inv in H as (e & H3 & H). destruct e; [|done]. destruct st; [|done]. split; [done|]. split; [|done].
    apply verify_loop_accept in H2 as [_ H2]. rewrite Forall_forall in H2. intros i Hi. apply H2. apply elem_of_seq. lia.
  Qed.
End Short.

Lemma eq_short {C : Curve} N j α (pp : poePP C) (V W : list (G1 C)) I J p :
  poe_params N (2 ^ j) α pp -> Forall (fun l => length l = (2 ^ j)%nat) [V; W] -> Forall (fun l => length l = (2 ^ j)%nat /\ Forall (fun i => i < N)%nat l) [I; J] ->
  (length (ap_Vaggr p) < 2 ^ j)%nat \/ (length (ap_Waggr p) < 2 ^ j)%nat -> Equalities_Verify (MkEqs poe_RO pp V W I J) p = Panic.
Proof.
  intros (Hpp & HG & HH) Hl HIJ Hs.
  rewrite !Forall_cons in Hl. destruct Hl as (LV & LW & _). rewrite !Forall_cons in HIJ. destruct HIJ as ((LI & HI) & (LJ & HJ) & _).
  assert (Hk : (1 <= 2 ^ j)%nat) by (pose proof (Nat.pow_nonzero 2 j); lia).
  unfold Equalities_Verify. cbn [es_RO es_PP es_V es_W es_I es_J]. rewrite !poe_RO_spec.
  cbn [rbind seq fmap list_fmap idx lookup list_lookup]. rewrite LV.
  set (x := fe _). set (ts := _ <$> seq 0 (2 * 2 ^ j)). assert (Lts : length ts = (2 * 2 ^ j)%nat) by (unfold ts; rewrite fmap_length, seq_length; done).
  destruct (evens_odds_length ts _ Lts) as [Le Lo]. generalize dependent ts. intros ts Lts Le Lo. generalize x. clear x. intros x.
  rewrite Hpp, !poe_g2s_spec by done. cbn [rbind].
  assert (Hev : Nat.even (length ts) = true) by (rewrite Lts; apply Nat.even_spec; exists (2 ^ j)%nat; lia).
  unfold Vec_Evens, Vec_Odds. rewrite Hev. cbn [rbind]. rewrite !g1v_mul_spec. unfold G1v_Add. rewrite !gvscale_length.
  destruct (Nat.leb_spec (length V) (length (ap_Vaggr p))) as [HV|HV]; [|done]. cbn [rbind].
  assert (La : forall A B : list (G1 C), length A = (2 ^ j)%nat -> (2 ^ j <= length B)%nat -> length (gvadd A (gvscale x B)) = (2 ^ j)%nat).
  { intros A B HA HB. unfold gvadd. rewrite zip_with_length, gvscale_length. lia. }
  assert (EV : length (gvadd V (gvscale x (ap_Vaggr p))) = (2 ^ j)%nat) by (apply La; lia). unfold gvadd in EV.
  rewrite g1v_mulv_spec by (rewrite EV; lia). cbn [rbind].
  rewrite g1v_innerprod_spec by (first [apply nonempty_len|idtac]; rewrite gvmul_length, ?fmap_length, ?EV; rewrite ?EV; lia). cbn [rbind].
  destruct (Nat.leb_spec (length W) (length (ap_Waggr p))) as [HW|HW]; [lia|done].
Qed.
Lemma eq_short_inner {C : Curve} N j α m (pp : poePP C) (V W : list (G1 C)) I J p :
  poe_params N (2 ^ j) α pp -> equality_shape j p -> Forall (fun l => length l = (2 ^ j)%nat) [V; W] -> Forall (fun l => length l = (2 ^ j)%nat /\ Forall (fun i => i < N)%nat l) [I; J] ->
  Equalities_Verify (MkEqs poe_RO pp V W I J) p = Ret nil_error -> (m < 2 * j)%nat ->
  Equalities_Verify (MkEqs poe_RO pp V W I J) (cut_Eq m (length (ap_Vaggr p)) (length (ap_Waggr p)) p) = Panic.
Proof.
  intros (Hpp & HG & HH) (LV' & LW' & HL) Hl HIJ Hacc Hm.
  rewrite !Forall_cons in Hl. destruct Hl as (LV & LW & _). rewrite !Forall_cons in HIJ. destruct HIJ as ((LI & HI) & (LJ & HJ) & _).
  assert (Hk : (1 <= 2 ^ j)%nat) by (pose proof (Nat.pow_nonzero 2 j); lia).
  revert Hacc. unfold Equalities_Verify. cbn [es_RO es_PP es_V es_W es_I es_J cut_Eq ap_IPP ap_c ap_ρ ap_U ap_V ap_Ω ap_Waggr ap_Vaggr]. rewrite !firstn_all, !poe_RO_spec.
  cbn [rbind seq fmap list_fmap idx lookup list_lookup]. rewrite LV.
  set (x := fe _). set (ts := _ <$> seq 0 (2 * 2 ^ j)). assert (Lts : length ts = (2 * 2 ^ j)%nat) by (unfold ts; rewrite fmap_length, seq_length; done).
  destruct (evens_odds_length ts _ Lts) as [Le Lo]. generalize dependent ts. intros ts Lts Le Lo. generalize x. clear x. intros x.
  rewrite Hpp, !poe_g2s_spec by done. cbn [rbind].
  assert (Hev : Nat.even (length ts) = true) by (rewrite Lts; apply Nat.even_spec; exists (2 ^ j)%nat; lia).
  unfold Vec_Evens, Vec_Odds. rewrite Hev. cbn [rbind].
  generalize (G1v_Add V (G1v_Mul (ap_Vaggr p) x)). intros [A| |]; cbn [rbind]; try done. destruct (G1v_MulV A _) as [A'| |]; cbn [rbind]; try done. destruct (G1v_InnerProd A' _) as [A''| |]; cbn [rbind]; try done.
  generalize (G1v_Add W (G1v_Mul (ap_Waggr p) x)). intros [B| |]; cbn [rbind]; try done. destruct (G1v_MulV B _) as [B'| |]; cbn [rbind]; try done. destruct (G1v_InnerProd B' _) as [B''| |]; cbn [rbind]; try done.
  rewrite g1v_innerprod_1. cbn [rbind]. destruct (idx (pp_G1s _) 0) as [g10| |]; cbn [rbind]; try done. destruct (idx_last _ 0) as [g2l| |]; cbn [rbind]; try done. rewrite g1v_innerprod_1. cbn [rbind].
  destruct (geqb _ _); [|done].
  rewrite vec_add_spec by lia. cbn [rbind]. rewrite mulv_sum by (first [rewrite vadd_length; lia|apply nonempty_len; lia]). cbn [rbind].
  unfold poe_bpPP. cbn [RandGenVec seq fmap list_fmap idx rbind lookup list_lookup].
  unfold RecomputeDigest. rewrite setup_digest_spec by (right; cbn [bp_G bp_H]; lia). cbn [rbind bp_G bp_H bp_U]. fold (poe_ipa pp). intros _.
  apply (C15_too_few_panics C (poe_ipa pp) j); [done..|]. cbn [ipp_LRs cut_ipp]. rewrite take_length. lia.
Qed.
Lemma eq_accepted_inner {C : Curve} N j α (pp : poePP C) (V W : list (G1 C)) I J p :
  poe_params N (2 ^ j) α pp -> Forall (fun l => length l = (2 ^ j)%nat) [V; W] -> Forall (fun l => length l = (2 ^ j)%nat /\ Forall (fun i => i < N)%nat l) [I; J] ->
  Equalities_Verify (MkEqs poe_RO pp V W I J) p = Ret nil_error -> equality_shape j p.
Proof.
  intros Hp Hl HIJ Hacc. assert (HV : (2 ^ j <= length (ap_Vaggr p))%nat).
  { apply Nat.nlt_ge. intros H. rewrite (eq_short N j α pp V W I J p Hp Hl HIJ) in Hacc by (left; exact H). discriminate Hacc. }
  assert (HW : (2 ^ j <= length (ap_Waggr p))%nat).
  { apply Nat.nlt_ge. intros H. rewrite (eq_short N j α pp V W I J p Hp Hl HIJ) in Hacc by (right; exact H). discriminate Hacc. }
  split; [exact HV|]. split; [exact HW|]. destruct Hp as (Hpp & HG & HH). rewrite !Forall_cons in Hl. destruct Hl as (LV & LW & _).
  assert (Hk : (1 <= 2 ^ j)%nat) by (pose proof (Nat.pow_nonzero 2 j); lia).
  apply Nat.nlt_ge. intros Hlt. revert Hacc. unfold Equalities_Verify. cbn [es_RO es_PP es_V es_W es_I es_J]. rewrite !poe_RO_spec.
  cbn [rbind seq fmap list_fmap idx lookup list_lookup]. rewrite LV.
  set (x := fe _). set (ts := _ <$> seq 0 (2 * 2 ^ j)). assert (Lts : length ts = (2 * 2 ^ j)%nat) by (unfold ts; rewrite fmap_length, seq_length; done).
  destruct (evens_odds_length ts _ Lts) as [Le Lo]. generalize dependent ts. intros ts Lts Le Lo. generalize x. clear x. intros x Hacc.
  do 2 (apply rbind_inv in Hacc as (? & _ & Hacc)).
  assert (Hev : Nat.even (length ts) = true) by (rewrite Lts; apply Nat.even_spec; exists (2 ^ j)%nat; lia).
  unfold Vec_Evens, Vec_Odds in Hacc. rewrite Hev in Hacc. cbn [rbind] in Hacc. do 10 (apply rbind_inv in Hacc as (? & _ & Hacc)). destruct (geqb _ _); [|done].
  revert Hacc. rewrite vec_add_spec by lia. cbn [rbind]. rewrite mulv_sum by (first [rewrite vadd_length; lia|apply nonempty_len; lia]). cbn [rbind].
  unfold poe_bpPP. cbn [RandGenVec seq fmap list_fmap idx rbind lookup list_lookup].
  unfold RecomputeDigest. rewrite setup_digest_spec by (right; cbn [bp_G bp_H]; lia). cbn [rbind bp_G bp_H bp_U]. fold (poe_ipa pp).
  rewrite (C15_too_few_panics C (poe_ipa pp) j); done.
Qed.

(** The statement the equality proof is verified for, from the parameters *)
Lemma path_equalities_fit {C : Curve} F α n k j (pp : PolPP C) p (Vs : list (G1 C)) zc : params_ok F α n k pp -> length (pe_G (po_POEPP pp)) = (2 ^ j)%nat ->
  length p = n -> (2 <= n)%nat -> Forall (fun i => i < F)%nat p -> (n <= length Vs)%nat ->
  poe_params (F + 2) (2 ^ j) α (po_POEPP pp) /\ pad_to_pow2 (n - 1) = Ret (2 ^ j)%nat /\ exists V W I J, path_equalities pp zc (2 ^ j) p Vs = MkEqs poe_RO (po_POEPP pp) V W I J /\
    Forall (fun l => length l = (2 ^ j)%nat) [V; W] /\ Forall (fun l => length l = (2 ^ j)%nat /\ Forall (fun i => i < F + 2)%nat l) [I; J].
Proof.
  intros Hp Hj Hlen Hn HpF HV. destruct Hp as (HF & Hk & HFan & HPP & Hrp & Hsp & _ & _ & _ & _ & j' & Hj' & Hpoe & Hnj & Hpad).
  assert (j' = j) as ->. { destruct Hpoe as (_ & HG & _). apply (Nat.pow_inj_r 2); [lia|]. congruence. }
  split; [exact Hpoe|]. split; [exact Hpad|]. eexists _, _, _, _. split; [reflexivity|]. rewrite Hlen, HFan.
  split; [repeat constructor; rewrite app_length, replicate_length, take_length, ?drop_length; lia|].
  repeat constructor; rewrite ?app_length, ?replicate_length, ?take_length; try lia; apply Forall_app; (split; [|apply Forall_replicate; lia]).
  - apply Forall_take. eapply Forall_impl; [exact HpF|]. cbn beta. intros i Hi. lia.
  - apply Forall_replicate. lia.
Qed.

(** An accepted proof has enough elements everywhere. *)
Theorem C83_accepted_shape : forall (C : Curve) F α n k j (pp : PolPP C) (lp : LiabilityProof C) id V W id2path p,
  params_ok F α n k pp -> length (pe_G (po_POEPP pp)) = (2 ^ j)%nat -> id2path id = Ret p -> length p = n -> Forall (fun i => i < F)%nat p ->
  LiabilityProof_Verify lp pp id V W id2path = Ret nil_error -> (2 <= n)%nat /\ liability_shape n k j lp.
Proof.
  intros C F α n k j pp lp id V W id2path p Hp Hj Hid Hlen HpF H. pose proof H as Hacc. apply C55_acceptance in Hacc as (p' & Hid' & A). rewrite Hid in Hid'. injection Hid' as <-.
  destruct A as [A1 A2 A3 A4 A5 _ _ A8 A9 (zc & m & _ & Z2 & Z3) _]. rewrite Hlen in *.
  assert (Hn : (2 <= n)%nat) by (apply lookup_lt_Some in A4; lia). split; [exact Hn|].
  destruct (A5 (n - 1)%nat ltac:(lia)) as (rp & Vi & R1 & R2 & _). apply lookup_lt_Some in R1, R2.
  destruct (path_equalities_fit F α n k j pp p (lp_V lp) zc Hp Hj Hlen Hn HpF ltac:(lia)) as (Hpoe & Hpad & Vs & Ws & I & J & EE & Hl & HIJ).
  rewrite Z2 in Hpad. injection Hpad as ->. rewrite EE in Z3. pose proof Hp as (_ & _ & _ & _ & Hrp & Hsp & _).
  split; [lia|]. split; [lia|]. split; [|split].
  - apply Forall_lookup_2. intros i r Hr. apply lookup_take_Some in Hr as [Hr Hi]. destruct (A5 i Hi) as (r' & Vi' & R1' & R2' & R3'). rewrite Hr in R1'. injection R1' as <-.
    apply (range_accepted_shape k (po_RPPP pp) r Vi' Hrp R3').
  - apply Nat.nlt_ge. intros Hlt. rewrite (sum_short k) in A9; [discriminate A9|exact Hsp|intros E; rewrite E in A3; discriminate A3|exact Hlt].
  - apply (eq_accepted_inner (F + 2) j α (po_POEPP pp) Vs Ws I J _ Hpoe Hl HIJ Z3).
Qed.

(** Cutting any of these short makes the verifier panic, whichever accepted proof one starts from. *)
Theorem C83_truncated_panics : forall (C : Curve) F α n k j (pp : PolPP C) (lp : LiabilityProof C) id V W id2path p,
  params_ok F α n k pp -> length (pe_G (po_POEPP pp)) = (2 ^ j)%nat -> id2path id = Ret p -> length p = n -> Forall (fun i => i < F)%nat p ->
  LiabilityProof_Verify lp pp id V W id2path = Ret nil_error ->
  let verify lp' := LiabilityProof_Verify lp' pp id V W id2path in
  (* fewer commitments, fewer range proofs *)
  (forall m, (m < n)%nat -> verify (with_V lp (take m (lp_V lp))) = Panic) /\
  (forall m, (m < n)%nat -> verify (with_ranges lp (take m (lp_RangeProofs lp))) = Panic) /\
  (* fewer elements in one range proof *)
  (forall i rp m, (i < n)%nat -> lp_RangeProofs lp !! i = Some rp -> (m < k)%nat -> verify (with_ranges lp (<[i := cut_rounds m rp]> (lp_RangeProofs lp))) = Panic) /\
  (forall i rp m, (i < n)%nat -> lp_RangeProofs lp !! i = Some rp -> (m < 2 * (k + 6))%nat -> verify (with_ranges lp (<[i := cut_inner m rp]> (lp_RangeProofs lp))) = Panic) /\
  (* fewer elements in the sum proof or in the equality proof *)
  (forall m, (m < 2 * k)%nat -> verify (with_sum lp (cut_sum m (lp_sum lp))) = Panic) /\
  (forall m, (m < 2 * j)%nat -> verify (with_Eq lp (cut_Eq m (length (ap_Vaggr (lp_Eq lp))) (length (ap_Waggr (lp_Eq lp))) (lp_Eq lp))) = Panic) /\
  (forall m mV mW, (mV < 2 ^ j)%nat \/ (mW < 2 ^ j)%nat -> verify (with_Eq lp (cut_Eq m mV mW (lp_Eq lp))) = Panic).
Proof.
  intros C F α n k j pp lp id V W id2path p Hp Hj Hid Hlen HpF H verify.
  destruct (C83_accepted_shape C F α n k j pp lp id V W id2path p Hp Hj Hid Hlen HpF H) as (Hn & HV & HR & HRs & Hs & He).
  destruct (accepted_iterations pp lp id V W id2path p Hid H) as (Hh & Hit & Hloop & Harg). rewrite Hlen in Hit.
  apply verify_header_accept in Hh as (W1 & D1 & V0 & W0).
  pose proof H as Hacc. apply C55_acceptance in Hacc as (p' & Hid' & A). rewrite Hid in Hid'. injection Hid' as <-. destruct A as [_ _ _ _ A5 A6 A7 A8 A9 (zc & mm & Z1 & Z2 & Z3) _].
  destruct (path_equalities_fit F α n k j pp p (lp_V lp) zc Hp Hj Hlen Hn HpF HV) as (Hpoe & Hpad & Vs & Ws & I & J & EE & Hl & HIJ).
  rewrite Hlen, Hpad in Z2. injection Z2 as <-. rewrite EE in Z3. pose proof Hp as (_ & _ & _ & _ & Hrp & Hsp & _).
  (* the loop panics *)
  assert (PL : forall lp' i, verify_header lp' p V W = Ret nil_error -> (i < n)%nat -> (forall i', (i' < i)%nat -> iteration_passes pp lp' p i') -> iteration_panics pp lp' p i -> verify lp' = Panic).
  { intros lp' i Hh' Hi Hps Hpn. unfold verify, LiabilityProof_Verify. rewrite Hid. cbn [rbind]. rewrite Hh'. cbn [rbind]. rewrite Hlen, (verify_loop_panics pp lp' p i n Hi Hps Hpn). done. }
  (* the arguments after the loop panic *)
  assert (PA : forall lp', lp_V lp' = lp_V lp -> lp_W lp' = lp_W lp -> lp_Digests lp' = lp_Digests lp -> lp_RangeProofs lp' = lp_RangeProofs lp -> verify_arguments pp lp' p = Panic -> verify lp' = Panic).
  { intros [Σ' π' s' V' W' D' R' E' L'] E1 E2 E3 E4 Hpn. cbn [lp_V lp_W lp_Digests lp_RangeProofs] in E1, E2, E3, E4. subst V' W' D' R'.
    assert (EL : forall is st, verify_loop pp (MkLP Σ' π' s' (lp_V lp) (lp_W lp) (lp_Digests lp) (lp_RangeProofs lp) E' L') p is st = verify_loop pp lp p is st).
    { induction is as [|i is IH]; intros st; [done|]. cbn [verify_loop]. change (verify_args (MkLP _ _ _ _ _ _ _ _ _) p i) with (verify_args lp p i).
      change (verify_digest (MkLP _ _ _ _ _ _ _ _ _) p i) with (verify_digest lp p i). destruct (verify_args lp p i) as [[rp Vi]| |]; cbn [rbind]; try done.
      destruct (VerifyRange _ rp Vi) as [e| |]; cbn [rbind]; try done. destruct (verify_digest lp p i) as [[|msg]| |]; cbn [rbind]; try done. }
    unfold verify, LiabilityProof_Verify. rewrite Hid. cbn [rbind]. rewrite (proj2 (verify_header_accept _ p V W)) by done. cbn [rbind]. rewrite EL, Hloop. cbn [rbind]. rewrite Hpn. done. }
  assert (RP : forall l i, (i < n)%nat -> (forall i', (i' < i)%nat -> l !! i' = lp_RangeProofs lp !! i') -> (l !! i = None \/ exists rp, l !! i = Some rp /\ forall Vi, lp_V lp !! i = Some Vi -> VerifyRange (po_RPPP pp) rp Vi = Panic) ->
    verify (with_ranges lp l) = Panic).
  { intros l i Hi Hsame Hbad. apply (PL _ i); [by apply verify_header_accept|exact Hi|..].
    - intros i' Hi'. destruct (Hit i' ltac:(lia)) as [(rp & Vi & Ha & Hr) Hd]. split; [|exact Hd]. exists rp, Vi. split; [|exact Hr].
      apply verify_args_inv in Ha as (Ha1 & Ha2 & Ha3); [|lia]. apply verify_args_inv; [lia|]. cbn [with_ranges lp_RangeProofs lp_V]. rewrite Hsame by lia. done.
    - destruct (Hit i Hi) as [(rp & Vi & Ha & _) _]. apply verify_args_inv in Ha as (Ha1 & Ha2 & Ha3); [|lia]. destruct Hbad as [HN|(rp' & HS & Hpan)].
      + left. unfold verify_args. cbn [with_ranges lp_RangeProofs lp_V]. unfold idx. rewrite Ha2, HN. cbn [rbind]. destruct (Nat.ltb_spec i (length p - 1)); [|done]. destruct (Ha3 ltac:(lia)) as [y ->]. done.
      + right. exists rp', Vi. split; [|by apply Hpan]. apply verify_args_inv; [lia|]. cbn [with_ranges lp_RangeProofs lp_V]. done. }
  split; [|split; [|split; [|split; [|split; [|split]]]]].
  - intros [|m] Hm.
    + unfold verify, LiabilityProof_Verify. rewrite Hid. cbn [rbind]. unfold verify_header. cbn [with_V lp_W lp_Digests lp_V take].
      rewrite (proj2 (Z.eqb_eq _ _)) by lia. rewrite (proj2 (Nat.eqb_eq _ _)) by lia. done.
    + apply (PL _ m); [|lia|..].
      * apply verify_header_accept. cbn [with_V lp_W lp_Digests lp_V]. rewrite lookup_take by lia. done.
      * intros i' Hi'. destruct (Hit i' ltac:(lia)) as [(rp & Vi & Ha & Hr) Hd]. split.
        -- exists rp, Vi. split; [|exact Hr]. apply verify_args_inv in Ha as (Ha1 & Ha2 & Ha3); [|lia]. apply verify_args_inv; [lia|]. cbn [with_V lp_RangeProofs lp_V]. rewrite !lookup_take by lia. done.
        -- rewrite <- Hd. unfold verify_digest. rewrite (proj2 (Nat.eqb_neq _ _)) by lia. destruct (Nat.ltb_spec 0 i'); [|done]. unfold checkCommitmentToInnerVertex. cbn [with_V lp_W lp_Digests lp_V]. unfold idx at 1. rewrite lookup_take by lia. done.
      * left. unfold verify_args. cbn [with_V lp_V]. rewrite (proj2 (Nat.ltb_lt _ _)) by lia. destruct (lookup_lt_is_Some_2 (take (S m) (lp_V lp)) m ltac:(rewrite take_length; lia)) as [y Hy]. unfold idx. rewrite Hy. cbn [rbind].
        rewrite (lookup_ge_None_2 (take (S m) (lp_V lp)) (m + 1)) by (rewrite take_length; lia). done.
  - intros m Hm. apply (RP _ m Hm); [intros i' Hi'; by rewrite lookup_take|]. left. apply lookup_ge_None_2. rewrite take_length. lia.
  - intros i rp m Hi Hrpi Hm. apply (RP _ i Hi); [intros i' Hi'; rewrite list_lookup_insert_ne by lia; done|]. right. exists (cut_rounds m rp).
    split; [apply list_lookup_insert; by apply lookup_lt_Some in Hrpi|]. intros Vi HVi. destruct (A5 i ltac:(lia)) as (rp' & Vi' & R1 & R2 & R3). apply (range_cut_rounds k); congruence.
  - intros i rp m Hi Hrpi Hm. apply (RP _ i Hi); [intros i' Hi'; rewrite list_lookup_insert_ne by lia; done|]. right. exists (cut_inner m rp).
    split; [apply list_lookup_insert; by apply lookup_lt_Some in Hrpi|]. intros Vi HVi. destruct (A5 i ltac:(lia)) as (rp' & Vi' & R1 & R2 & R3). apply (range_cut_inner k); congruence.
  - intros m Hm. apply PA; try done. unfold verify_arguments. cbn [with_sum lp_W lp_π lp_Σ lp_sum lp_V]. rewrite A8. cbn [rbind]. rewrite (sum_short k); [done|exact Hsp|intros E; rewrite E in V0; discriminate V0|].
    cbn [cut_sum sm_π cut_ipp ipp_LRs]. rewrite take_length. lia.
  - intros m Hm. apply PA; try done. unfold verify_arguments. cbn [with_Eq lp_W lp_π lp_Σ lp_sum lp_V lp_Eq]. rewrite A8. cbn [rbind]. rewrite A9. cbn [rbind].
    rewrite (proj2 (verify_equalities_spec pp (with_Eq lp _) p (path_equalities pp zc (2 ^ j) p (lp_V lp)) ltac:(lia))) by (split; [left; cbn; lia|exists zc, (2 ^ j)%nat; rewrite Hlen; done]). cbn [rbind].
    rewrite EE, (eq_short_inner (F + 2) j α m (po_POEPP pp) Vs Ws I J (lp_Eq lp) Hpoe He Hl HIJ Z3 Hm). done.
  - intros m mV mW Hm. apply PA; try done. unfold verify_arguments. cbn [with_Eq lp_W lp_π lp_Σ lp_sum lp_V lp_Eq]. rewrite A8. cbn [rbind]. rewrite A9. cbn [rbind].
    rewrite (proj2 (verify_equalities_spec pp (with_Eq lp _) p (path_equalities pp zc (2 ^ j) p (lp_V lp)) ltac:(lia))) by (split; [left; cbn; lia|exists zc, (2 ^ j)%nat; rewrite Hlen; done]). cbn [rbind].
    rewrite EE, (eq_short (F + 2) j α (po_POEPP pp) Vs Ws I J _ Hpoe Hl HIJ); [done|]. cbn [cut_Eq ap_Vaggr ap_Waggr]. rewrite !take_length. lia.
Qed.

(** Concrete case: the accepted proof of a dense tree with fanout 7 (path of length 11, 16 equalities).  Without its range proofs,
    with three commitments only, or without the inner elements of its sum proof, the verifier panics; with arbitrary other elements in the same number, it returns. *)
Example C83_nonvacuous : exists (pp : PolPP toy) V W lp, params_ok 7 (zr 5) 11 3 pp /\ length (pe_G (po_POEPP pp)) = (2 ^ 4)%nat /\
  LiabilityProof_Verify lp pp "123456789" V W (digit_path 7) = Ret nil_error /\ liability_shape 11 3 4 lp /\
  LiabilityProof_Verify (with_ranges lp []) pp "123456789" V W (digit_path 7) = Panic /\
  LiabilityProof_Verify (with_V lp (take 3 (lp_V lp))) pp "123456789" V W (digit_path 7) = Panic /\
  LiabilityProof_Verify (with_sum lp (cut_sum 0 (lp_sum lp))) pp "123456789" V W (digit_path 7) = Panic /\
  exists e, LiabilityProof_Verify (with_V lp (replicate 11 gzero)) pp "123456789" V W (digit_path 7) = Ret e.
Proof.
  assert (Hlp1 : length ex_dense_p1 = 11%nat) by done.
  assert (HpF : Forall (fun i => i < 7)%nat ex_dense_p1) by (unfold ex_dense_p1; repeat constructor; lia).
  destruct ex_dense_run as (pp & g & ls & ls' & V & W & lp & _ & _ & _ & H4 & _ & _ & H7).
  destruct H4 as (_ & (k & Hp) & _). rewrite Hlp1 in Hp.
  assert (k = 3%nat) as ->. { destruct Hp as (HF & _). apply (Nat.pow_inj_r 2); [lia|]. rewrite <- HF. done. }
  assert (Hj : length (pe_G (po_POEPP pp)) = (2 ^ 4)%nat).
  { destruct Hp as (_ & _ & _ & _ & _ & _ & _ & _ & _ & _ & j & _ & (_ & HG & _) & _ & Hpad). rewrite HG. change (pad_to_pow2 (11 - 1)) with (pad_to_pow2 10) in Hpad.
    assert (E : pad_to_pow2 10 = Ret 16%nat) by (vm_compute; reflexivity). rewrite E in Hpad. injection Hpad as <-. done. }
  destruct (C83_accepted_shape toy 7 (zr 5) 11 3 4 pp lp "123456789" V W (digit_path 7) ex_dense_p1 Hp Hj ex_dense_path1 Hlp1 HpF H7) as [_ Hs].
  destruct (C83_truncated_panics toy 7 (zr 5) 11 3 4 pp lp "123456789" V W (digit_path 7) ex_dense_p1 Hp Hj ex_dense_path1 Hlp1 HpF H7) as (T1 & T2 & _ & _ & T3 & _).
  exists pp, V, W, lp. split; [exact Hp|]. split; [exact Hj|]. split; [exact H7|]. split; [exact Hs|].
  split; [exact (T2 0%nat ltac:(lia))|]. split; [exact (T1 3%nat ltac:(lia))|]. split; [exact (T3 0%nat ltac:(lia))|].
  apply (C83_liability_returns toy 7 (zr 5) 11 3 4 pp (with_V lp (replicate 11 gzero)) "123456789" V W (digit_path 7) ex_dense_p1 Hp Hj ltac:(lia) ex_dense_path1 Hlp1 HpF).
  destruct Hs as (S1 & S2 & S3 & S4 & S5). split; [cbn [with_V lp_V]; rewrite replicate_length; lia|]. split; [exact S2|]. split; [exact S3|]. split; [exact S4|exact S5].
Qed.

Print Assumptions C83_range_returns.
Print Assumptions C83_sum_returns.
Print Assumptions C83_equality_returns.
Print Assumptions C83_total_returns.
Print Assumptions C83_liability_returns.
Print Assumptions C83_accepted_shape.
Print Assumptions C83_truncated_panics.
