(** Runs of the range prover and verifier in closed form. *)
From Verif Require Export Range_facts.
Local Open Scope Zr_scope.

Section Run.
  Context {C : Curve}.
  Implicit Types (pp : RPPP C) (rp : RangeProof C).

  (** parameters for n = 2^k values *)
  Definition rp_wf (k : nat) pp : Prop :=
    (1 <= k < 16)%nat /\ length (rp_Gs pp) = (2 ^ k)%nat /\
    length (rp_Hs pp) = (2 ^ k * rp_m + 2 ^ k)%nat /\ length (rp_Fs pp) = (2 ^ k * rp_m + 2 ^ k)%nat.
  Lemma rp_len k : (2 ^ k * rp_m + 2 ^ k = 2 ^ (k + 6))%nat.
  Proof. rewrite Nat.pow_add_r. unfold rp_m. change (2 ^ 6)%nat with 64%nat. lia. Qed.

  Definition rg_x pp (V W Q : G1 C) : Zr := fe (sha256 C (rp_Digest pp ++ enc1 C V ++ enc1 C W ++ enc1 C Q)).
  Definition rg_y pp (b : Z) (x : Zr) (Q R : G1 C) : Zr :=
    fe (sha256 C (enc1 C Q ++ enc1 C R ++ [b] ++ rp_Digest pp ++ Zr_Bytes x)).
  Definition rg_z pp (C1 C2 Q R : G1 C) (y0 y1 : Zr) : Zr :=
    fe (sha256 C (enc1 C Q ++ enc1 C R ++ rp_Digest pp ++ enc1 C C1 ++ enc1 C C2 ++ Zr_Bytes y0 ++ Zr_Bytes y1)).
  Definition rg_rdx pp : bpPP C :=
    let U := rand_gen "U range proof" 0 in MkBpPP (sha256 C (setup_pre (rp_Gs pp) [] U)) (rp_Gs pp) [] U.
  Definition rg_Fp pp (y0 : Zr) : list (G1 C) := gvmul (PowerSeries (length (rp_Fs pp)) (zinv y0)) (rp_Fs pp).
  Definition rg_ipa pp (y0 : Zr) : bpPP C :=
    let U := rand_gen "u" 0 in MkBpPP (sha256 C (setup_pre (rp_Hs pp) (rg_Fp pp y0) U)) (rp_Hs pp) (rg_Fp pp y0) U.
  Definition rg_P pp (nm : nat) (ρ : Zr) (Q R : G1 C) (z y0 y1 : Zr) (d : list Zr) : G1 C :=
    gadd (gadd (gadd (gadd (gadd (gmul ρ (rp_F pp)) Q) (gmul z R))
      (msm (vscale y1 (ones nm)) (take nm (rp_Hs pp)))) (msm (vscale (y1 * y1) d) (rg_Fp pp y0)))
      (msm (vscale y1 (ones nm)) (take nm (rp_Fs pp))).

  Lemma rangeProofRO1_spec pp V W Q : rangeProofRO1 pp V W Q = Ret (rg_x pp V W Q).
  Proof. unfold rangeProofRO1. apply fe_sha. Qed.
  Lemma rp_y_spec pp b x Q R : rp_y pp b x Q R = Ret (rg_y pp b x Q R).
  Proof. unfold rp_y, randomOracle. apply fe_sha. Qed.
  Lemma computeZ_spec pp C1 C2 Q R y0 y1 : computeZ pp C1 C2 Q R (Zr_Bytes y0) (Zr_Bytes y1) = Ret (rg_z pp C1 C2 Q R y0 y1).
  Proof. unfold computeZ, randomOracle. apply fe_sha. Qed.
  Lemma ppRdx_spec pp : ppRdx pp = Ret (rg_rdx pp).
  Proof. unfold ppRdx. cbn [RandGenVec seq fmap list_fmap idx rbind lookup list_lookup]. apply setup_digest_spec. left. done. Qed.
  Lemma rg_Fp_length pp y0 : length (rg_Fp pp y0) = length (rp_Fs pp).
  Proof. unfold rg_Fp. apply gvmul_length. apply power_series_length. Qed.
  Lemma rp_Fprime_spec pp y0 : rp_Fprime pp y0 = Ret (rg_Fp pp y0).
  Proof. unfold rp_Fprime, rg_Fp, invertZr. apply g1v_mulv_spec. rewrite power_series_length. done. Qed.
  Lemma rp_ipaPP_spec pp y0 : length (rp_Hs pp) = length (rp_Fs pp) -> rp_ipaPP pp (rg_Fp pp y0) = Ret (rg_ipa pp y0).
  Proof.
    intros H. unfold rp_ipaPP. cbn [RandGenVec seq fmap list_fmap idx rbind lookup list_lookup]. apply setup_digest_spec.
    right. cbn [bp_G bp_H]. rewrite rg_Fp_length. lia.
  Qed.
  Lemma computeP_spec k pp ρ Q R z y0 y1 d : rp_wf k pp -> length d = (2 ^ k * rp_m + 2 ^ k)%nat ->
    computeP pp ρ Q R z (vscale y1 (ones (2 ^ k * rp_m))) (2 ^ k) rp_m (rg_Fp pp y0) d y1 = Ret (rg_P pp (2 ^ k * rp_m) ρ Q R z y0 y1 d).
  Proof.
    intros (Hk & HG & HH & HF) Hd. pose proof (Nat.pow_nonzero 2 k ltac:(lia)) as Hn.
    unfold computeP. set (nm := (2 ^ k * rp_m)%nat) in *. assert (Hnm : (0 < nm)%nat) by (unfold nm, rp_m; lia).
    rewrite !slice_to_spec by lia. cbn [rbind]. rewrite vec_mul_spec.
    rewrite !g1v_mulv_sum by (first [apply nonempty_len|idtac]; rewrite ?take_length, ?vscale_length, ?ones_length, ?rg_Fp_length; lia).
    done.
  Qed.

  Definition rg_U pp (V W : G1 C) (γ x : Zr) : G1 C := gadd (gadd (gmul γ (rp_F pp)) V) (gmul x W).
  (** what VerifyRange recomputes from the proof *)
  Definition rv_x pp rp (V : G1 C) : Zr := rg_x pp V (rp_W rp) (rp_Q rp).
  Definition rv_U pp rp (V : G1 C) : G1 C := rg_U pp V (rp_W rp) (rp_γ rp) (rv_x pp rp V).
  Definition rv_y0 pp rp V : Zr := rg_y pp 0 (rv_x pp rp V) (rp_Q rp) (rp_R rp).
  Definition rv_y1 pp rp V : Zr := rg_y pp 1 (rv_x pp rp V) (rp_Q rp) (rp_R rp).
  Definition rv_z pp rp V : Zr := rg_z pp (rp_C1 rp) (rp_C2 rp) (rp_Q rp) (rp_R rp) (rv_y0 pp rp V) (rv_y1 pp rp V).
  Definition rv_xs k pp rp V : list Zr := ir_chal (bp_Digest (rg_rdx pp)) (rv_U pp rp V) (take k (rp_Δ rp)).
  Definition rv_d k pp rp V : list Zr := dvec (vco (rv_xs k pp rp V)) (rv_x pp rp V).
  Definition rv_P k pp rp V : G1 C :=
    rg_P pp (2 ^ k * rp_m) (rp_ρ rp) (rp_Q rp) (rp_R rp) (rv_z pp rp V) (rv_y0 pp rp V) (rv_y1 pp rp V) (rv_d k pp rp V).
  (** the inner proof after lines 136-137 *)
  Definition rv_Π k pp rp V : IPProof C :=
    MkIPP (ipp_LRs (rp_Π rp)) (ipp_a (rp_Π rp)) (ipp_b (rp_Π rp)) (rv_P k pp rp V) (rp_c rp).
  Definition rp_with_Π rp (Π : IPProof C) : RangeProof C :=
    MkRP (rp_Δ rp) (rp_u rp) (rp_W rp) (rp_γ rp) Π (rp_c rp) (rp_Q rp) (rp_R rp) (rp_C1 rp) (rp_C2 rp) (rp_τ rp) (rp_ρ rp).
  Definition rv_c0 k pp rp V : Zr :=
    let nm := (2 ^ k * rp_m)%nat in
    rc0 nm (dD (vco (rv_xs k pp rp V))) (PowerSeries nm (rv_y0 pp rp V)) (rv_y1 pp rp V) (rp_u rp).
  Definition rv_final k pp rp V : Prop :=
    let z := rv_z pp rp V in
    gadd (gadd (gmul z (rp_C1 rp)) (gmul (z * z) (rp_C2 rp))) (gmul (rv_c0 k pp rp V) (rp_G pp)) =
    gadd (gmul (rp_c rp) (rp_G pp)) (gmul (rp_τ rp) (rp_H pp)).

  (** The verifier after a successful iterated reduction. *)
  Lemma verify_range_st_spec k pp rp V : rp_wf k pp -> (k <= length (rp_Δ rp))%nat ->
    VerifyRange_st pp rp V =
    let! ir := IterativeVerify (rg_rdx pp) (rv_U pp rp V) (rp_Δ rp) (rp_u rp) in
    match ir with
    | inr err => Ret (rp, Err ("iterated reduction proof invalid: " +:+ err))
    | inl _ =>
      let Π := rv_Π k pp rp V in
      let rp' := rp_with_Π rp Π in
      let! e := IPP_Verify Π (rg_ipa pp (rv_y0 pp rp V)) in
      match e with
      | Err err => Ret (rp', Err ("inner product proof invalid: " +:+ err))
      | nil_error =>
        let z := rv_z pp rp V in
        if geqb (gadd (gadd (gmul z (rp_C1 rp)) (gmul (z * z) (rp_C2 rp))) (gmul (rv_c0 k pp rp V) (rp_G pp)))
                (gadd (gmul (rp_c rp) (rp_G pp)) (gmul (rp_τ rp) (rp_H pp)))
        then Ret (rp', nil_error) else Ret (rp', Err "invalid range proof")
      end
    end.
  Proof.
    intros Hwf HΔ. destruct Hwf as (Hk & HG & HH & HF) eqn:Ewf. unfold VerifyRange_st. rewrite rangeProofRO1_spec. cbn [rbind].
    rewrite ppRdx_spec. cbn [rbind]. rewrite HG.
    fold (rv_x pp rp V). fold (rg_U pp V (rp_W rp) (rp_γ rp) (rv_x pp rp V)). fold (rv_U pp rp V).
    destruct (iterative_verify_spec k (rg_rdx pp) (rv_U pp rp V) (rp_Δ rp) (rp_u rp)) as (res & Hres & Hc); [exact HG|done|done|].
    rewrite Hres. cbn [rbind]. destruct Hc as [(_ & _ & ->)|(_ & msg & ->)]; [|done].
    fold (rv_xs k pp rp V).
    assert (Hxs : length (rv_xs k pp rp V) = k) by (unfold rv_xs; rewrite ir_chal_length, take_length; lia).
    rewrite compute_f_spec by done. cbn [rbind].
    assert (Hf : length (vco (rv_xs k pp rp V)) = (2 ^ k)%nat) by (rewrite vco_length, Hxs; done).
    rewrite computeD_spec by done. cbn [rbind]. rewrite !rp_y_spec. cbn [rbind].
    fold (rv_y0 pp rp V) (rv_y1 pp rp V). rewrite computeZ_spec. cbn [rbind]. fold (rv_z pp rp V).
    rewrite rp_Fprime_spec. cbn [rbind]. rewrite rp_ipaPP_spec by lia. cbn [rbind].
    rewrite ones_expand, vec_mul_spec. fold (rv_d k pp rp V).
    assert (Hd : length (rv_d k pp rp V) = (2 ^ k * rp_m + 2 ^ k)%nat) by (unfold rv_d; rewrite dvec_length, Hf; done).
    rewrite (computeP_spec k) by done. cbn [rbind]. fold (rv_P k pp rp V). fold (rv_Π k pp rp V). fold (rp_with_Π rp (rv_Π k pp rp V)).
    destruct (IPP_Verify (rv_Π k pp rp V) (rg_ipa pp (rv_y0 pp rp V))) as [[|err]| |]; cbn [rbind]; try done.
    rewrite slice_to_spec by lia.
    assert (Ht : take (2 ^ k * rp_m) (rv_d k pp rp V) = dD (vco (rv_xs k pp rp V))).
    { unfold rv_d, dvec. apply take_app_alt. rewrite dD_length, Hf. done. }
    cbn [rbind]. rewrite Ht. rewrite !vec_innerprod_spec by (rewrite ones_length, ?power_series_length, ?dD_length, ?Hf; done). cbn [rbind].
    reflexivity.
  Qed.

  (** Acceptance, for every proof with enough group elements. *)
  Lemma verify_range_accept k pp rp V : rp_wf k pp -> (k <= length (rp_Δ rp))%nat -> (2 * (k + 6) <= length (ipp_LRs (rp_Π rp)))%nat ->
    exists rp' e, VerifyRange_st pp rp V = Ret (rp', e) /\
      (e = nil_error <->
       (exists p, IterativeVerify (rg_rdx pp) (rv_U pp rp V) (rp_Δ rp) (rp_u rp) = Ret (inl p)) /\
       IPP_Verify (rv_Π k pp rp V) (rg_ipa pp (rv_y0 pp rp V)) = Ret nil_error /\ rv_final k pp rp V).
  Proof.
    intros Hwf HΔ HL. rewrite (verify_range_st_spec k) by done. destruct Hwf as (Hk & HG & HH & HF).
    destruct (iterative_verify_spec k (rg_rdx pp) (rv_U pp rp V) (rp_Δ rp) (rp_u rp)) as (res & Hres & Hc); [exact HG|done|done|].
    rewrite Hres. cbn [rbind]. destruct res as [p|msg].
    2:{ eexists _, _. split; [reflexivity|]. split; [done|]. intros [[p Hp] _]. done. }
    destruct (ipp_verify_spec (k + 6) (rg_ipa pp (rv_y0 pp rp V)) (rv_Π k pp rp V)) as (e & He & _).
    { cbn [rg_ipa bp_G]. rewrite HH, rp_len. done. }
    { cbn [rg_ipa bp_H]. rewrite rg_Fp_length, HF, rp_len. done. }
    { cbn [rv_Π ipp_LRs]. lia. }
    rewrite He. cbn [rbind]. destruct e as [|err].
    2:{ eexists _, _. split; [reflexivity|]. split; [done|]. intros (_ & E & _). done. }
    cbv zeta. unfold rv_final. destruct (geqb _ _) eqn:E; [apply geqb_eq in E|apply geqb_neq in E]; eexists _, _; (split; [reflexivity|]).
    - split; [intros _|done]. split; [by eexists|]. split; [done|exact E].
    - split; [done|]. intros (_ & _ & H). done.
  Qed.
End Run.
