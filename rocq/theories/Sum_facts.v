(** Facts about the model of sum/sa.go. *)
From Verif Require Export Model_sum.
Local Open Scope Zr_scope.

(** The weights (1,…,1,-1). *)
Definition sum_b (n : nat) : list Zr := ones (n - 1) ++ [zopp 1].
Lemma sum_b_length n : (1 <= n)%nat -> length (sum_b n) = n.
Proof. intros H. unfold sum_b. rewrite app_length, ones_length. cbn. lia. Qed.
Lemma dot_ones a n : length a = n -> dot a (ones n) = zsum a.
Proof. intros <-. induction a as [|x a IH]; [done|]. cbn [length ones replicate dot zsum]. unfold ones in IH. rewrite IH. ring. Qed.
Lemma dot_sum_b a x : dot (a ++ [x]) (sum_b (S (length a))) = zsum a - x.
Proof.
  unfold sum_b. replace (S (length a) - 1)%nat with (length a) by lia.
  rewrite dot_app, dot_ones by (rewrite ?ones_length; done). cbn [dot]. ring.
Qed.
Lemma sum_weights_spec n : (1 <= n)%nat -> sum_weights n = Ret (sum_b n).
Proof.
  intros H. unfold sum_weights. rewrite (proj2 (Nat.leb_le _ _) H). f_equal. unfold sum_b, sum_negZr, IntToZr, ones.
  destruct n as [|n]; [lia|]. replace (S n - 1)%nat with n by lia. change (zr 0 - zr 1) with (0 - 1). replace (0 - 1) with (zopp 1) by ring.
  change (zr 1) with 1. clear. induction n as [|n IH]; [done|]. cbn [replicate insert list_insert app]. f_equal. exact IH.
Qed.

Section Sum.
  Context {C : Curve}.
  Definition sum_wf (k : nat) (pp : sumPP C) : Prop :=
    length (sp_Gs pp) = (2 ^ k)%nat /\ length (sp_H pp) = (2 ^ k)%nat /\
    sp_b pp = sum_b (2 ^ k) /\ sp_B pp = msm (sum_b (2 ^ k)) (sp_H pp).
  Definition sum_ipa (pp : sumPP C) : bpPP C :=
    MkBpPP (sha256 C (setup_pre (sp_Gs pp) (sp_H pp) (sp_U pp))) (sp_Gs pp) (sp_H pp) (sp_U pp).
  Definition sum_x (c : Zr) (V W : G1 C) : Zr := fe (sha256 C (Zr_Bytes c ++ enc1 C V ++ enc1 C W)).
  Lemma pow2_pos k : (1 <= 2 ^ k)%nat. Proof. pose proof (Nat.pow_nonzero 2 k). lia. Qed.
  Lemma sum_ipaPP_spec pp : length (sp_Gs pp) = length (sp_H pp) -> sum_ipaPP pp = Ret (sum_ipa pp).
  Proof. intros H. unfold sum_ipaPP, RecomputeDigest. rewrite setup_digest_spec; [done|]. right. cbn [bp_G bp_H]. lia. Qed.
  Lemma sum_new_params k : exists pp, sum_NewPublicParams (C:=C) (2 ^ k) = Ret pp /\ sum_wf k pp /\
    sp_Gs pp = RandGenVec (2 ^ k) "sum argument Gs" /\ sp_H pp = RandGenVec (2 ^ k) "sum argument H" /\
    [sp_F pp] = RandGenVec 1 "sum argument F" /\ [sp_U pp] = RandGenVec 1 "IPA u".
  Proof.
    pose proof (pow2_pos k) as Hk. unfold sum_NewPublicParams. cbn [RandGenVec seq fmap list_fmap idx rbind lookup list_lookup].
    rewrite sum_weights_spec by lia. cbn [rbind].
    fold (RandGenVec (C:=C) (2 ^ k) "sum argument H"). fold (RandGenVec (C:=C) (2 ^ k) "sum argument Gs").
    rewrite mulv_sum; [|rewrite rand_gen_vec_length, sum_b_length by lia; done|apply nonempty_len; rewrite rand_gen_vec_length; lia]. cbn [rbind].
    eexists. split; [reflexivity|]. unfold sum_wf. cbn [sp_Gs sp_H sp_b sp_B sp_F sp_U]. rewrite !rand_gen_vec_length. done.
  Qed.

  Definition sum_P (pp : sumPP C) (proof : sumProof C) (V : G1 C) : G1 C :=
    gadd (gadd (gadd (gmul (sm_ρ proof) (sp_F pp)) V) (gmul (sum_x (sm_c proof) V (sm_W proof)) (sm_W proof))) (sp_B pp).
  Lemma sum_verify_spec pp proof V : length (sp_Gs pp) = length (sp_H pp) ->
    sum_Verify proof pp V =
    IPP_Verify (MkIPP (ipp_LRs (sm_π proof)) (ipp_a (sm_π proof)) (ipp_b (sm_π proof)) (sum_P pp proof V)
      (sm_c proof * sum_x (sm_c proof) V (sm_W proof))) (sum_ipa pp).
  Proof.
    intros H. unfold sum_Verify, randomOracleCVW. rewrite fe_sha. cbn [rbind]. rewrite sum_ipaPP_spec by done. done.
  Qed.

  (** Verdict on the honest prover's proof, for any vector committed in V. *)
  Lemma sum_honest k pp v r w r' : sum_wf k pp -> length v = (2 ^ k)%nat -> length w = (2 ^ k)%nat ->
    let V := gadd (gmul r (sp_F pp)) (msm v (sp_Gs pp)) in
    exists p, sum_NewArgument pp V v r w r' = Ret p /\ length (ipp_LRs (sm_π p)) = (2 * k)%nat /\
      (Forall (fun x => x <> 0) (chal (inst_digest (sum_ipa pp)) (ipp_LRs (sm_π p))) ->
       exists e, sum_Verify p pp V = Ret e /\
        (e = nil_error <-> gmul (inst_x (sum_ipa pp) * dot v (sum_b (2 ^ k))) (sp_U pp) = gzero)).
  Proof.
    intros (HG & HH & Hb & HB) Hv Hw V. pose proof (pow2_pos k) as Hk.
    assert (Lb : length (sum_b (2 ^ k)) = (2 ^ k)%nat) by (apply sum_b_length; lia).
    unfold sum_NewArgument. rewrite mulv_sum by (first [lia|apply nonempty_len; lia]). cbn [rbind].
    rewrite Hb, vec_innerprod_spec by lia. cbn [rbind]. unfold randomOracleCVW. rewrite fe_sha. cbn [rbind].
    set (W := gadd (gmul r' (sp_F pp)) (msm w (sp_Gs pp))). set (c := dot w (sum_b (2 ^ k))).
    fold (sum_x c V W). set (x := sum_x c V W).
    rewrite sum_ipaPP_spec by lia. cbn [rbind]. rewrite vec_mul_spec, vec_add_spec by (rewrite vscale_length; lia). cbn [rbind].
    set (a := vadd v (vscale x w)). assert (La : length a = (2 ^ k)%nat) by (unfold a; rewrite vadd_length; rewrite ?vscale_length; lia).
    rewrite new_ipa_spec; [|lia|apply nonempty_len; lia|cbn [sum_ipa bp_G]; lia|cbn [sum_ipa bp_H]; lia]. cbn [rbind].
    set (P0 := gadd (msm a (bp_G (sum_ipa pp))) (msm (sum_b (2 ^ k)) (bp_H (sum_ipa pp)))).
    set (pf := fun π => MkSumProof W c (sum_negZr (r + r' * x)) π).
    destruct (ipa_honest_body_iff k (sum_ipa pp) a (sum_b (2 ^ k)) (dot a (sum_b (2 ^ k))) P0
      (c * x) (sum_P pp (pf (MkIPP [] 0 0 gzero 0)) V)) as (LRs & al & be & Hp & HL & Hver); [done..|].
    rewrite Hp. cbn [rbind]. eexists. split; [reflexivity|]. cbn [sm_π ipp_LRs]. split; [done|].
    intros Hnz. destruct (Hver Hnz) as (e & He & Hiff). exists e. rewrite sum_verify_spec by lia. cbn [sm_π ipp_LRs ipp_a ipp_b sm_c sm_W].
    split; [exact He|]. rewrite Hiff. clear He Hiff Hver Hp Hnz.
    unfold sum_P, pf. cbn [sm_c sm_W sm_ρ]. fold x. rewrite HB. unfold ipa_com. cbn [sum_ipa bp_G bp_H bp_U].
    unfold a. rewrite msm_vadd, msm_vscale, dot_vadd_l, dot_vscale_l by (rewrite ?vscale_length; lia). fold c.
    unfold V, W, sum_negZr. change (IntToZr 0) with 0. rewrite <- gmul_mul.
    fold (sum_ipa pp). generalize (inst_x (sum_ipa pp)) (dot v (sum_b (2 ^ k))). intros z d.
    generalize x c. clear. intros x c. 
    set (S := gadd (gadd (msm v (sp_Gs pp)) (gmul x (msm w (sp_Gs pp)))) (msm (sum_b (2 ^ k)) (sp_H pp))).
    assert (E1 : gadd (gadd (gadd (gadd (gmul (0 - (r + r' * x)) (sp_F pp)) (gadd (gmul r (sp_F pp)) (msm v (sp_Gs pp)))) (gmul x (gadd (gmul r' (sp_F pp)) (msm w (sp_Gs pp))))) (msm (sum_b (2 ^ k)) (sp_H pp))) (gmul (z * (c * x)) (sp_U pp)) = gadd S (gmul (z * (c * x)) (sp_U pp))).
    { unfold S. module. }
    rewrite E1. assert (E2 : gadd S (gmul ((d + x * c) * z) (sp_U pp)) = gadd (gadd S (gmul (z * (c * x)) (sp_U pp))) (gmul (z * d) (sp_U pp))) by module.
    rewrite E2. generalize (gadd S (gmul (z * (c * x)) (sp_U pp))) (gmul (z * d) (sp_U pp)). clear. intros A B. split; intros H.
    - apply (gadd_cancel_l A). rewrite <- H, gadd_0_r. done.
    - rewrite H, gadd_0_r. done.
  Qed.

  (** Aggregation *)
  Definition sum_τ (V : list (G1 C)) : Zr := fe (sha256 C (G1v_Bytes V)).
  Lemma hvzk_spec V m : createHVZKChallenge V m = Ret (PowerSeries m (sum_τ V)).
  Proof. unfold createHVZKChallenge. rewrite fe_sha. done. Qed.
End Sum.
