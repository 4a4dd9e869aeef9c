(** The run of the range prover and its completeness. *)
From Verif Require Export Range_run.
Local Open Scope Zr_scope.

Section Prover.
  Context {C : Curve}.
  Implicit Types (pp : RPPP C) (rp : RangeProof C).

  Lemma mulv_sum (g : list (G1 C)) v : length g = length v -> g <> [] -> rbind (G1v_MulV g v) G1v_Sum = Ret (msm v g).
  Proof. apply g1v_mulv_sum. Qed.
  (** msm of (c ∘ y0^i) under Fs scaled by y0^-i *)
  Lemma msm_powers (c : list Zr) (Fs : list (G1 C)) y N : y <> 0 -> (length c <= N)%nat -> length Fs = N ->
    msm (vmul c (PowerSeries (length c) y)) (gvmul (PowerSeries N (zinv y)) Fs) = msm c Fs.
  Proof.
    intros Hy Hc HF. rewrite msm_gvmul.
    assert (E : vmul (vmul c (PowerSeries (length c) y)) (PowerSeries N (zinv y)) = c); [|rewrite E; done].
    apply list_eq. intros i. unfold vmul. rewrite !lookup_zip_with.
    destruct (c !! i) as [ci|] eqn:Ec; [|done]. pose proof (lookup_lt_Some _ _ _ Ec).
    rewrite !power_series_lookup by lia. cbn. f_equal. 
    assert (Hp : y ^ i * zinv y ^ i = 1).
    { clear -Hy. induction i as [|i IH]; [change (1 * 1 = 1); ring|].
      change (y ^ S i) with (y * y ^ i). change (zinv y ^ S i) with (zinv y * zinv y ^ i).
      transitivity ((y * zinv y) * (y ^ i * zinv y ^ i)); [ring|]. rewrite IH, zinv_r by done. ring. }
    transitivity (ci * (y ^ i * zinv y ^ i)); [ring|]. rewrite Hp. ring.
  Qed.
  Lemma msm_take (a : list Zr) (g : list (G1 C)) n : length a = n -> msm a (take n g) = msm a g.
  Proof.
    intros <-. revert g. induction a as [|x a IH]; intros [|P g]; cbn; try done. rewrite IH. done.
  Qed.
  Lemma msm_app_zeros (a : list Zr) n (g : list (G1 C)) : msm (a ++ zeros n) g = msm a g.
  Proof.
    revert g. induction a as [|x a IH]; intros g; [apply msm_zeros|]. destruct g as [|P g]; [done|]. cbn. rewrite IH. done.
  Qed.

  Lemma vmul_comm (a b : list Zr) : vmul a b = vmul b a.
  Proof. revert b. induction a as [|x a IH]; intros [|y b]; [done..|]. unfold vmul in *. cbn. f_equal; [ring|apply IH]. Qed.

  (** P is the commitment to the two vectors of the inner-product argument. *)
  Lemma range_P nm n bits w sL sR t D E y0 y1 z ν η pp :
    length bits = nm -> length w = n -> length sL = nm -> length sR = n -> length t = nm -> length D = nm -> length E = n ->
    length (rp_Hs pp) = (nm + n)%nat -> length (rp_Fs pp) = (nm + n)%nat -> y0 <> 0 ->
    let y0v := PowerSeries nm y0 in
    let wC := vsub (ones nm) bits in
    let Q := gadd (gadd (gmul ν (rp_F pp)) (msm (bits ++ w) (rp_Hs pp))) (msm wC (take nm (rp_Fs pp))) in
    let R := gadd (gadd (gmul η (rp_F pp)) (msm (sL ++ sR) (rp_Hs pp))) (msm t (take nm (rp_Fs pp))) in
    rg_P pp nm (- (ν + η * z)) Q R z y0 y1 (D ++ E) =
    gadd (msm (ra nm n bits w sL sR y1 z) (rp_Hs pp)) (msm (rb nm n bits t D E y0v y1 z) (rg_Fp pp y0)).
  Proof.
    intros Lb Lw LsL LsR Lt LD LE HH HF Hy y0v wC Q R. unfold rg_P, Q, R.
    assert (LwC : length wC = nm) by (unfold wC; rewrite vsub_length; rewrite ones_length; lia).
    assert (Ly : length y0v = nm) by (unfold y0v; apply power_series_length).
    rewrite !(msm_take _ _ nm) by (rewrite ?vscale_length, ?ones_length; done).
    assert (Hpow : forall c, length c = nm -> msm (vmul c y0v) (rg_Fp pp y0) = msm c (rp_Fs pp)).
    { intros c Hc. unfold y0v, rg_Fp. rewrite <- Hc. apply msm_powers; [done|lia|done]. }
    unfold ra, ra', rb, rb'.
    assert (L1 : length (vscale y1 (ones nm) ++ zeros n) = (nm + n)%nat) by (rewrite app_length, vscale_length, ones_length, zeros_length; done).
    assert (L2 : length (vmul wC y0v ++ zeros n) = (nm + n)%nat) by (rewrite app_length, vmul_length, zeros_length; lia).
    assert (L3 : length (vmul y0v t ++ zeros n) = (nm + n)%nat) by (rewrite app_length, vmul_length, zeros_length; lia).
    assert (L4 : length (y0v ++ zeros n) = (nm + n)%nat) by (rewrite app_length, zeros_length; lia).
    assert (L5 : length (D ++ E) = (nm + n)%nat) by (rewrite app_length; lia).
    assert (L6 : length (bits ++ w) = (nm + n)%nat) by (rewrite app_length; lia).
    assert (L7 : length (sL ++ sR) = (nm + n)%nat) by (rewrite app_length; lia).
    fold wC.
    rewrite !msm_vadd by (rewrite ?vadd_length; rewrite ?vadd_length; rewrite ?vscale_length; lia).
    rewrite !msm_vscale, !msm_app_zeros, Hpow by done.
    assert (Eyt : msm (vmul y0v t) (rg_Fp pp y0) = msm t (rp_Fs pp)).
    { rewrite <- (Hpow t) by done. f_equal. apply vmul_comm. }
    assert (Ey : msm y0v (rg_Fp pp y0) = msm (ones nm) (rp_Fs pp)).
    { rewrite <- (Hpow (ones nm)) by apply ones_length. f_equal. rewrite <- Ly. clear. generalize y0v. intros l. 
      induction l as [|x l IH]; [done|]. unfold vmul, ones in *. cbn. f_equal; [ring|exact IH]. }
    rewrite Eyt, Ey. rewrite msm_vscale.
    generalize (msm (ones nm) (rp_Hs pp)) (msm (ones nm) (rp_Fs pp)) (msm (D ++ E) (rg_Fp pp y0)) (msm wC (rp_Fs pp)) (msm t (rp_Fs pp))
      (msm (bits ++ w) (rp_Hs pp)) (msm (sL ++ sR) (rp_Hs pp)). intros. module.
  Qed.

  Definition range_challenges pp rp (V : G1 C) : list Zr :=
    rv_y0 pp rp V :: ir_chal (bp_Digest (rg_rdx pp)) (rv_U pp rp V) (rp_Δ rp) ++
    chal (inst_digest (rg_ipa pp (rv_y0 pp rp V))) (ipp_LRs (rp_Π rp)).

  (** The prover returns whatever the commitment V is; the proof is accepted if V commits to v. *)
  Lemma prove_range_run k pp V v r co : rp_wf k pp -> coins_ok (2 ^ k) co -> length v = (2 ^ k)%nat ->
    Forall (fun x => (zv x < 2 ^ 63)%Z) v ->
    exists rp, ProveRange_unchecked pp V v r co = Ret (rp, rg_ipa pp (rv_y0 pp rp V)) /\
      length (rp_Δ rp) = k /\ length (ipp_LRs (rp_Π rp)) = (2 * (k + 6))%nat /\
      (Forall (fun x => x <> 0) (chal (inst_digest (rg_ipa pp (rv_y0 pp rp V))) (ipp_LRs (rp_Π rp))) ->
       IPP_Verify (rp_Π rp) (rg_ipa pp (rv_y0 pp rp V)) = Ret nil_error) /\
      (V = gadd (gmul r (rp_F pp)) (msm v (rp_Gs pp)) -> rv_y0 pp rp V <> 0 -> Forall (fun x => x <> 0) (ir_chal (bp_Digest (rg_rdx pp)) (rv_U pp rp V) (rp_Δ rp)) ->
       IPP_Verify (rp_Π rp) (rg_ipa pp (rv_y0 pp rp V)) = Ret nil_error -> VerifyRange pp rp V = Ret nil_error).
  Proof.
    intros Hwf (Lw & Ls & Lt) Hv Hsmall. pose proof Hwf as (Hk & HG & HH & HF).
    pose proof (Nat.pow_nonzero 2 k ltac:(lia)) as Hn0.
    destruct (vec_bits_small v Hsmall) as (l & Hbits & Hzb & HL & Hdot). rewrite Hv in HL.
    destruct co as [w r' ν η s t τ1 τ2]. cbn [co_w co_rPrime co_ν co_η co_s co_t co_τ1 co_τ2] in *.
    unfold ProveRange_unchecked. cbn [co_w co_rPrime co_ν co_η co_s co_t co_τ1 co_τ2]. rewrite HG.
    set (n := (2 ^ k)%nat) in *. set (nm := (n * rp_m)%nat) in *. assert (Hnm : (0 < nm)%nat) by (unfold nm, rp_m; lia).
    rewrite (mulv_sum (rp_Gs pp)) by (first [lia|apply nonempty_len; lia]). cbn [rbind].
    rewrite Hbits. cbn [rbind]. unfold IntsToZr. set (bits := zr <$> l).
    assert (Lb : length bits = nm) by (unfold bits; rewrite fmap_length; done).
    rewrite slice_to_spec by (rewrite app_length; lia). cbn [rbind]. rewrite take_app_alt by done.
    rewrite !ones_expand, vec_sub_spec by (rewrite ones_length; lia). cbn [rbind]. set (wC := vsub (ones nm) bits).
    assert (LwC : length wC = nm) by (unfold wC; rewrite vsub_length; rewrite ones_length; lia).
    rewrite (mulv_sum (rp_Hs pp) (bits ++ w)) by (first [rewrite app_length; lia|apply nonempty_len; lia]). cbn [rbind].
    rewrite !slice_to_spec by lia. cbn [rbind].
    rewrite (mulv_sum (take nm (rp_Fs pp)) wC) by (first [rewrite take_length; lia|apply nonempty_len; rewrite take_length; lia]). cbn [rbind].
    set (W := gadd (gmul r' (rp_F pp)) (msm w (rp_Gs pp))).
    set (Q := gadd (gadd (gmul ν (rp_F pp)) (msm (bits ++ w) (rp_Hs pp))) (msm wC (take nm (rp_Fs pp)))).
    rewrite rangeProofRO1_spec. cbn [rbind]. set (x := rg_x pp V W Q).
    rewrite negzr_opp. set (γ := - (r + x * r')). fold (rg_U pp V W γ x).
    rewrite ppRdx_spec. cbn [rbind]. rewrite vec_mul_spec, vec_add_spec by (rewrite vscale_length; lia). cbn [rbind].
    assert (EU : V = gadd (gmul r (rp_F pp)) (msm v (rp_Gs pp)) -> rg_U pp V W γ x = msm (vadd v (vscale x w)) (rp_Gs pp)).
    { intros HV. unfold rg_U, W, γ. rewrite HV, msm_vadd, msm_vscale by (rewrite vscale_length; lia). 
      generalize x. intros x'. module. }
    destruct (iterative_reduce_spec k (rg_rdx pp) (vadd v (vscale x w)) (rg_U pp V W γ x)) as (Δ & HΔ & Hrun & Hir);
      [exact HG|rewrite vadd_length; rewrite ?vscale_length; lia|done|]. cbv zeta in Hrun, Hir.
    set (xs := ir_chal (bp_Digest (rg_rdx pp)) (rg_U pp V W γ x) Δ) in *. rewrite Hrun. cbn [rbind].
    assert (Hxs : length xs = k) by (unfold xs; rewrite ir_chal_length; done).
    unfold n at 1. rewrite compute_f_spec by done. cbn [rbind]. set (f := vco xs) in *.
    assert (Hf : length f = n) by (unfold f; rewrite vco_length, Hxs; done).
    rewrite computeD_spec by done. cbn [rbind].
    rewrite (mulv_sum (rp_Hs pp) s) by (first [lia|apply nonempty_len; lia]). cbn [rbind].
    rewrite (mulv_sum (take nm (rp_Fs pp)) t) by (first [rewrite take_length; lia|apply nonempty_len; rewrite take_length; lia]). cbn [rbind].
    set (R := gadd (gadd (gmul η (rp_F pp)) (msm s (rp_Hs pp))) (msm t (take nm (rp_Fs pp)))).
    rewrite !rp_y_spec. cbn [rbind]. set (y0 := rg_y pp 0 x Q R). set (y1 := rg_y pp 1 x Q R).
    rewrite !zeros_expand. unfold Vec_Concat.
    set (y0v := PowerSeries nm y0). assert (Ly : length y0v = nm) by apply power_series_length.
    set (D := dD f). assert (LD : length D = nm) by (unfold D; rewrite dD_length, Hf; done).
    change (dvec f x) with (D ++ vscale x f). set (E := vscale x f). assert (LE : length E = n) by (unfold E; rewrite vscale_length; done).
    set (sL := take nm s). set (sR := drop nm s). assert (Es : s = sL ++ sR) by (symmetry; apply take_drop).
    assert (LsL : length sL = nm) by (unfold sL; rewrite take_length; lia).
    assert (LsR : length sR = n) by (unfold sR; rewrite drop_length; lia).
    rewrite !vec_mul_spec.
    rewrite (vec_add_spec (bits ++ w)) by (rewrite !app_length, vscale_length, ones_length, zeros_length; lia). cbn [rbind].
    fold (ra' nm n bits w y1).
    rewrite (vec_add_spec (vscale (y1 * y1) (D ++ E))) by (rewrite !vscale_length, !app_length, zeros_length; lia). cbn [rbind].
    rewrite (vec_hadamard_spec wC) by lia. cbn [rbind].
    rewrite (vec_add_spec (vadd _ _)) by (rewrite vadd_length; rewrite ?vscale_length, ?app_length, ?zeros_length; rewrite ?vmul_length; lia). cbn [rbind].
    fold wC. change (vadd (vadd (vscale (y1 * y1) (D ++ E)) (vscale y1 (y0v ++ zeros n))) (vmul wC y0v ++ zeros n)) with (rb' nm n bits D E y0v y1).
    rewrite (vec_hadamard_spec y0v) by lia. cbn [rbind].
    assert (Lra' : length (ra' nm n bits w y1) = (nm + n)%nat) by exact (ra'_length nm n bits w sL sR t D E y0v y1 Lb Lw LsL LsR Lt LD LE Ly).
    assert (Lrb' : length (rb' nm n bits D E y0v y1) = (nm + n)%nat) by exact (rb'_length nm n bits w sL sR t D E y0v y1 Lb Lw LsL LsR Lt LD LE Ly).
    rewrite (slice_to_spec nm (ra' _ _ _ _ _)) by lia. cbn [rbind].
    assert (Lyt : length (vmul y0v t) = nm) by (rewrite vmul_length; lia).
    rewrite (vec_innerprod_spec (take nm _)) by (rewrite take_length; lia). cbn [rbind].
    rewrite (vec_innerprod_spec s) by lia. cbn [rbind]. fold sL.
    rewrite (vec_innerprod_spec sL) by lia. cbn [rbind].
    assert (Ec1 : dot (take nm (ra' nm n bits w y1)) (vmul y0v t) + dot s (rb' nm n bits D E y0v y1) = rc1 nm n bits sL sR t D E y0v y1).
    { unfold rc1. rewrite (ra'_split nm n bits w sL sR t D E y0v y1 Lb Lw LsL LsR Lt LD LE Ly). rewrite take_app_alt by (rewrite vadd_length; rewrite ?vscale_length, ?ones_length; lia). rewrite <- Es. done. }
    rewrite Ec1. fold (rc2 sL t y0v).
    set (c1 := rc1 _ _ _ _ _ _ _ _ _ _). set (c2 := rc2 _ _ _).
    set (C1 := gadd (gmul c1 (rp_G pp)) (gmul τ1 (rp_H pp))). set (C2 := gadd (gmul c2 (rp_G pp)) (gmul τ2 (rp_H pp))).
    rewrite computeZ_spec. cbn [rbind]. set (z := rg_z pp C1 C2 Q R y0 y1). rewrite negzr_opp.
    rewrite rp_Fprime_spec. cbn [rbind]. rewrite !vec_mul_spec.
    rewrite (vec_add_spec (ra' _ _ _ _ _)) by (rewrite vscale_length; lia). cbn [rbind].
    rewrite (vec_add_spec (rb' _ _ _ _ _ _ _)) by (rewrite vscale_length, app_length, zeros_length; lia). cbn [rbind].
    assert (Ea : vadd (ra' nm n bits w y1) (vscale z s) = ra nm n bits w sL sR y1 z) by (unfold ra; rewrite <- Es; done). rewrite Ea.
    fold (rb nm n bits t D E y0v y1 z). set (a := ra _ _ _ _ _ _ _ _) in *. set (b := rb _ _ _ _ _ _ _ _ _).
    assert (La : length a = (nm + n)%nat) by exact (ra_length nm n bits w sL sR t D E y0v y1 z Lb Lw LsL LsR Lt LD LE Ly).
    assert (Lbb : length b = (nm + n)%nat) by exact (rb_length nm n bits w sL sR t D E y0v y1 z Lb Lw LsL LsR Lt LD LE Ly).
    rewrite vec_innerprod_spec by lia. cbn [rbind]. rewrite rp_ipaPP_spec by lia. cbn [rbind].
    assert (HN : (nm + n = 2 ^ (k + 6))%nat) by apply rp_len.
    rewrite (new_ipa_spec (rg_ipa pp y0) a b).
    2:{ lia. } 2:{ apply nonempty_len; lia. } 2:{ cbn [rg_ipa bp_G]; lia. } 2:{ cbn [rg_ipa bp_H]; rewrite rg_Fp_length; lia. }
    cbn [rbind].
    assert (Lp1 : length a = (2 ^ (k + 6))%nat) by lia. assert (Lp2 : length b = (2 ^ (k + 6))%nat) by lia.
    assert (Lp3 : length (bp_G (rg_ipa pp y0)) = (2 ^ (k + 6))%nat) by (cbn [rg_ipa bp_G]; lia).
    assert (Lp4 : length (bp_H (rg_ipa pp y0)) = (2 ^ (k + 6))%nat) by (cbn [rg_ipa bp_H]; rewrite rg_Fp_length; lia).
    set (Pc := gadd (msm a (bp_G (rg_ipa pp y0))) (msm b (bp_H (rg_ipa pp y0)))).
    destruct (ipa_honest_body_iff (k + 6) (rg_ipa pp y0) a b (dot a b) Pc (dot a b) Pc Lp1 Lp2 Lp3 Lp4) as (LRs & al & be & HP & HLR & Hver).
    rewrite HP. cbn [rbind].
    set (rp := MkRP Δ (dot (vadd v (vscale x w)) f) W γ (MkIPP LRs al be Pc (dot a b)) (dot a b) Q R C1 C2 (τ1 * z + τ2 * (z * z)) (- (ν + η * z))).
    assert (Ey0 : rv_y0 pp rp V = y0) by done.
    exists rp. split; [rewrite Ey0; reflexivity|]. split; [done|]. split; [done|]. rewrite Ey0 in *. split.
    { intros Hnz2. change (ipp_LRs (rp_Π rp)) with LRs in Hnz2. destruct (Hver Hnz2) as (e & He & Hiff).
      assert (e = nil_error) as -> by (apply Hiff; unfold ipa_com, Pc; generalize (dot a b); intros ab; module). exact He. }
    intros HV Hy0 Hnz1 He. specialize (EU HV). change (ir_chal _ (rv_U pp rp V) (rp_Δ rp)) with xs in Hnz1. unfold VerifyRange.
    destruct (verify_range_accept k pp rp V) as (rp' & e & Hst & Hacc); [done|change (rp_Δ rp) with Δ; lia|cbn [rp rp_Π ipp_LRs]; lia|].
    rewrite Hst. cbn [rbind snd]. f_equal. apply Hacc. rewrite Ey0.
    assert (Exs : rv_xs k pp rp V = xs) by (unfold rv_xs; cbn [rp rp_Δ]; rewrite take_ge by lia; done).
    assert (Eu : dot bits D + dot w E = dot (vadd v (vscale x w)) f).
    { unfold D, E. rewrite Hdot by lia. rewrite dot_vadd_l by (rewrite vscale_length; lia). rewrite dot_vscale_l, dot_vscale_r. ring. }
    split; [|split].
    - destruct (Hir Hnz1 EU) as [Hr1 Hr2].
      destruct (iterative_verify_spec k (rg_rdx pp) (rg_U pp V W γ x) Δ (dot (vadd v (vscale x w)) f)) as (res & Hres & Hcase); [exact HG|done|lia|].
      cbv zeta in Hcase. rewrite take_ge in Hcase by lia. fold xs in Hcase.
      destruct Hcase as [(_ & _ & ->)|[Hn _]]; [eexists; exact Hres|]. exfalso. apply Hn. done.
    - rewrite <- He. f_equal. unfold rv_Π. cbn [rp rp_Π ipp_LRs ipp_a ipp_b rp_c]. f_equal.
      unfold rv_P, rv_d. rewrite Exs. change (rv_x pp rp V) with x. change (rv_z pp rp V) with z. rewrite Ey0. change (rv_y1 pp rp V) with y1.
      cbn [rp rp_ρ rp_Q rp_R]. fold n. fold nm. fold f. change (dvec f x) with (D ++ E).
      unfold Pc. cbn [rg_ipa bp_G bp_H].
      pose proof (range_P nm n bits w sL sR t D E y0 y1 z ν η pp Lb Lw LsL LsR Lt LD LE HH HF Hy0) as HPc. cbv zeta in HPc.
      rewrite <- Es in HPc. exact HPc.
    - unfold rv_final. change (rv_z pp rp V) with z. unfold rv_c0. rewrite Exs, Ey0. change (rv_y1 pp rp V) with y1.
      cbn [rp rp_C1 rp_C2 rp_c rp_τ rp_u]. fold n. fold nm. fold f. fold D. fold y0v.
      assert (Hbc : vmul bits (vsub (ones nm) bits) = zeros nm).
      { unfold bits. rewrite <- HL. apply bits_complement. done. }
      pose proof (rc_spec nm n bits w sL sR t D E y0v y1 z (dot (vadd v (vscale x w)) f) Lb Lw LsL LsR Lt LD LE Ly Hbc Eu) as Hc.
      fold a b c1 c2 in Hc. rewrite Hc. unfold C1, C2. set (c0 := rc0 _ _ _ _ _). clearbody c0 c1 c2 z. clear. module.
  Qed.
  Lemma prove_range_checked k pp V v r co : rp_wf k pp -> coins_ok (2 ^ k) co -> length v = (2 ^ k)%nat ->
    Forall (fun x => (zv x < 2 ^ 63)%Z) v -> V = gadd (gmul r (rp_F pp)) (msm v (rp_Gs pp)) ->
    exists rp, ProveRange_unchecked pp V v r co = Ret (rp, rg_ipa pp (rv_y0 pp rp V)) /\
      length (rp_Δ rp) = k /\ length (ipp_LRs (rp_Π rp)) = (2 * (k + 6))%nat /\
      (Forall (fun x => x <> 0) (chal (inst_digest (rg_ipa pp (rv_y0 pp rp V))) (ipp_LRs (rp_Π rp))) ->
       IPP_Verify (rp_Π rp) (rg_ipa pp (rv_y0 pp rp V)) = Ret nil_error) /\
      (rv_y0 pp rp V <> 0 -> Forall (fun x => x <> 0) (ir_chal (bp_Digest (rg_rdx pp)) (rv_U pp rp V) (rp_Δ rp)) ->
       IPP_Verify (rp_Π rp) (rg_ipa pp (rv_y0 pp rp V)) = Ret nil_error -> VerifyRange pp rp V = Ret nil_error).
  Proof.
    intros Hwf Hco Hv Hs HV. destruct (prove_range_run k pp V v r co Hwf Hco Hv Hs) as (rp & H1 & H2 & H3 & H4 & H5). eauto 10.
  Qed.
  Lemma prove_range_spec k pp V v r co : rp_wf k pp -> coins_ok (2 ^ k) co -> length v = (2 ^ k)%nat ->
    Forall (fun x => (zv x < 2 ^ 63)%Z) v -> V = gadd (gmul r (rp_F pp)) (msm v (rp_Gs pp)) ->
    exists rp, ProveRange_unchecked pp V v r co = Ret (rp, rg_ipa pp (rv_y0 pp rp V)) /\
      length (rp_Δ rp) = k /\ length (ipp_LRs (rp_Π rp)) = (2 * (k + 6))%nat /\
      (Forall (fun x => x <> 0) (range_challenges pp rp V) ->
       IPP_Verify (rp_Π rp) (rg_ipa pp (rv_y0 pp rp V)) = Ret nil_error /\ VerifyRange pp rp V = Ret nil_error).
  Proof.
    intros Hwf Hco Hv Hs HV. destruct (prove_range_checked k pp V v r co Hwf Hco Hv Hs HV) as (rp & H1 & H2 & H3 & H4 & H5).
    exists rp. split; [done|]. split; [done|]. split; [done|]. intros Hnz. unfold range_challenges in Hnz.
    apply Forall_cons in Hnz. destruct Hnz as [Hy0 Hnz]. apply Forall_app in Hnz. destruct Hnz as [Hnz1 Hnz2]. specialize (H4 Hnz2). split; [done|]. apply H5; done.
  Qed.
End Prover.
