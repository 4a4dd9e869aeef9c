(** The equality arguments for all slots, the last one included.  In the last slot N-1 the prover takes the generator itself from
    the parameters where g1^(α^(N+1)) would be needed, which is withheld (pp/pointproofs.go:46-47, poe/poe.go:363,367). *)
From Verif Require Import Poe_facts Prop_poe.
Local Open Scope Zr_scope.

Section Last.
  Context {C : Curve} (N : nat) (α : Zr) (HN2 : (2 <= N)%nat).
  Let pp := NewPublicParams (C:=C) N α.
  Local Notation g1 := (g1 (C:=C)).
  (** The exponent of e.PP.PP.G1s[len-1-i] *)
  Definition mirror i : Zr := if (i + 1 <? N)%nat then α ^ (2 * N - i) else 1.
  Definition excess i : Zr := if (i + 1 <? N)%nat then 0 else α ^ (N + 1) - 1.
  Lemma g1_mirror i : (i < N)%nat -> idx_last (pp_G1s pp) i = Ret (g1 (mirror i)).
  Proof.
    intros H. unfold mirror. destruct (Nat.ltb_spec (i + 1) N) as [L|L]; [apply g1_last; exact L|].
    assert (HL : length (pp_G1s pp) = (2 * N)%nat) by (apply pp_G1s_length; lia). unfold idx_last, idxZ. rewrite HL.
    destruct (Z.ltb_spec (Z.of_nat (2 * N) - 1 - Z.of_nat i) 0); [lia|]. apply idx_ret.
    replace (Z.to_nat (Z.of_nat (2 * N) - 1 - Z.of_nat i)) with N by lia. unfold pp. rewrite pp_G1s_lookup_mid. unfold Poe_facts.g1. rewrite gmul_1. reflexivity.
  Qed.
  Lemma blind_last i (x u ν : Zr) : (i < N)%nat ->
    α ^ (N - i) * (x * (u * α ^ (i + 1) + ν * α ^ N)) = x * u * α ^ (N + 1) + x * ν * mirror i + x * (ν * excess i).
  Proof.
    intros H. rewrite (blind_rel N α i x u ν H). unfold mirror, excess. destruct (Nat.ltb_spec (i + 1) N) as [L|L]; [ring|].
    replace (2 * N - i)%nat with (N + 1)%nat by lia. ring.
  Qed.

  Section One.
  Context (e : Equality C) (HRO : oracle_ok (eq_RO e)) (Hpp : pe_PP (eq_PP e) = pp) (HI : (eq_I e < N)%nat) (HJ : (eq_J e < N)%nat).

  (** The prover's run, without the check of line 347. *)
  Lemma equality_prove_last v w u η ν : length v = N -> length w = N ->
    nth (eq_I e) v 0 = nth (eq_J e) w 0 ->
    exists Υ, Equality_Prove e v w u η ν = Ret Υ /\
      (eq_V e = commitment N α v -> eq_W e = commitment N α w -> exists x t0 t1 rest err,
       eq_RO e [eq_V e; eq_W e; ep_V Υ; ep_W Υ] [] (pe_Digest (eq_PP e)) 1%nat = Ret [x] /\
       eq_RO e [eq_V e; eq_W e; gmul x (ep_V Υ); gmul x (ep_W Υ); gmul (ep_C Υ) (gen1 C)] [eq_I e; eq_J e] (pe_Digest (eq_PP e)) 2%nat = Ret (t0 :: t1 :: rest) /\
       Equality_Verify e Υ = Ret err /\ (err = nil_error <-> x * (t0 * (ν * excess (eq_I e)) + t1 * (η * excess (eq_J e))) = 0)).
  Proof.
    intros Hv Hw Heq. unfold Equality_Prove.
    destruct (lookup_lt_is_Some_2 v (eq_I e) ltac:(lia)) as [vI HvI]. destruct (lookup_lt_is_Some_2 w (eq_J e) ltac:(lia)) as [wJ HwJ].
    assert (EvI : nth (eq_I e) v 0 = vI) by (rewrite nth_lookup, HvI; done).
    assert (EwJ : nth (eq_J e) w 0 = wJ) by (rewrite nth_lookup, HwJ; done).
    rewrite (idx_ret _ _ _ HvI), (idx_ret _ _ _ HwJ). cbn [rbind]. rewrite (proj2 (zeqb_eq vI wJ)) by congruence.
    rewrite Hv, Hw, Nat.eqb_refl, Hpp. unfold pp. rewrite !g1_idx by lia. fold pp. cbn [rbind].
    assert (En : idxZ (pp_G1s pp) (Z.of_nat N - 1) = Ret (g1 (α ^ N))).
    { unfold idxZ. destruct (Z.ltb_spec (Z.of_nat N - 1) 0); [lia|]. replace (Z.to_nat (Z.of_nat N - 1)) with (N - 1)%nat by lia.
      unfold pp. rewrite g1_idx by lia. do 3 f_equal. lia. }
    rewrite En. cbn [rbind]. rewrite !g1_mirror by lia. cbn [rbind].
    set (V' := gadd (gmul u _) (gmul ν _)). set (W' := gadd (gmul u _) (gmul η _)).
    destruct (HRO [eq_V e; eq_W e; V'; W'] [] (pe_Digest (eq_PP e)) 1%nat) as (xl & Hx & Lx).
    destruct xl as [|x [|]]; try (cbn in Lx; lia). rewrite Hx. cbn [rbind idx lookup list_lookup]. set (c := vI + u * x).
    destruct (HRO [eq_V e; eq_W e; gmul x V'; gmul x W'; gmul c (gen1 C)] [eq_I e; eq_J e] (pe_Digest (eq_PP e)) 2%nat) as (ts & Ht & Lt).
    destruct ts as [|t0 [|t1 rest]]; try (cbn in Lt; lia). rewrite Ht. cbn [rbind idx lookup list_lookup].
    unfold pp. rewrite !open_spec by lia. fold pp. cbn [rbind]. eexists. split; [reflexivity|].
    intros EV EW. match goal with |- context [Equality_Verify e ?Υ0] => destruct (equality_verify_spec N α e HRO Hpp HI HJ Υ0) as (x' & t0' & t1' & rest' & Hx' & Ht' & err & Herr & Hiff) end.
    cbn [ep_C ep_V ep_W ep_Ω] in *. rewrite Hx in Hx'. assert (x' = x) by congruence. subst x'. unfold Poe_facts.g1 in Ht'. rewrite Ht in Ht'.
    assert (t0' = t0 /\ t1' = t1) as [-> ->] by (split; congruence). clear Hx' Ht'.
    exists x, t0, t1, rest, err. split; [exact Hx|]. split; [exact Ht|]. split; [exact Herr|]. rewrite Hiff. clear Herr Hiff.
    rewrite EV, EW. unfold commitment, V', W', Poe_facts.g1.
    pose proof (blind_last (eq_I e) x u ν HI) as B1. pose proof (blind_last (eq_J e) x u η HJ) as B2.
    pose proof (entry_rel N α (eq_I e) v HI) as D1. pose proof (entry_rel N α (eq_J e) w HJ) as D2.
    rewrite EvI in D1. rewrite EwJ in D2. rewrite EvI, EwJ in Heq. subst wJ.
    revert B1 B2 D1 D2. unfold c.
    generalize (α ^ (N - eq_I e)) (α ^ (N - eq_J e)) (α ^ (eq_I e + 1)) (α ^ (eq_J e + 1)) (α ^ N) (α ^ (N + 1)) (mirror (eq_I e)) (mirror (eq_J e)) (excess (eq_I e)) (excess (eq_J e)).
    generalize (dot v (pows α 1 N)) (dot w (pows α 1 N)) (open_exp N α (eq_I e) v) (open_exp N α (eq_J e) w). clear.
    intros dv dw ov ow aI aJ bI bJ n n1 cI cJ dI dJ B1 B2 D1 D2.
    match goal with |- ?L = ?R <-> _ => assert (E : L = gadd R (g1 (x * (t0 * (ν * dI) + t1 * (η * dJ))))) end.
    { unfold Poe_facts.g1. module_pre.
      transitivity (t0 * (aI * (x * (u * bI + ν * n)) + aI * dv) + t1 * (aJ * (x * (u * bJ + η * n)) + aJ * dw)); [ring|].
      rewrite B1, B2, D1, D2. ring. }
    rewrite E. match goal with |- gadd ?R _ = ?R <-> _ => generalize R end. intros R. unfold Poe_facts.g1. split; intros H.
    - rewrite <- (gadd_0_r R) in H at 2. apply gadd_cancel_l in H. apply gmul_eq_0 in H as [H|H]; [exact H|]. destruct (gen1_neq_0 H).
    - rewrite H, gmul_0, gadd_0_r. reflexivity.
  Qed.
  End One.

  Definition item_in (t : eqItem) : Prop :=
    length (t_v t) = N /\ length (t_w t) = N /\ (t_i t < N)%nat /\ (t_j t < N)%nat.
  Definition l_iter (t : eqItem) : poeIter C :=
    MkIter (g1 (t_u t * α ^ (t_i t + 1) + t_ν t * α ^ N)) (g1 (t_ν t * mirror (t_i t)))
           (g1 (t_u t * α ^ (t_j t + 1) + t_η t * α ^ N)) (g1 (t_η t * mirror (t_j t)))
           (g1 (open_exp N α (t_i t) (t_v t))) (g1 (open_exp N α (t_j t) (t_w t))).
  Section Many.
  Context (e : Equalities C) (its : list eqItem) (k : nat).
  Context (HRO : oracle_ok (es_RO e)) (Hpp : pe_PP (es_PP e) = pp).
  Context (HG : length (pe_G (es_PP e)) = (2 ^ k)%nat) (HH : length (pe_H (es_PP e)) = (2 ^ k)%nat) (Hm : length its = (2 ^ k)%nat).
  Context (Hok : Forall item_in its).
  Context (HV : es_V e = (fun t => commitment N α (t_v t)) <$> its) (HW : es_W e = (fun t => commitment N α (t_w t)) <$> its).
  Context (HI : es_I e = t_i <$> its) (HJ : es_J e = t_j <$> its).

  Lemma item_at j t : its !! j = Some t -> item_in t.
  Proof. intros H. eapply Forall_lookup_1; [exact Hok|exact H]. Qed.

  (** The verifier's and the honest prover's runs; the prover does not compare v[I] and w[J]. *)
  Definition l_first : list (G1 C) :=
    (it_V <$> (l_iter <$> its)) ++ (it_W <$> (l_iter <$> its)) ++ es_V e ++ es_W e.
  Lemma equalities_last r1 r2 : 
    exists p x ts, Equalities_Prove e (t_v <$> its) (t_w <$> its) ((fun t => (t_u t, t_η t, t_ν t)) <$> its) r1 r2 = Ret p /\
      length (ipp_LRs (ap_IPP p)) = (2 * k)%nat /\
      es_RO e (ap_Vaggr p ++ ap_Waggr p ++ es_V e ++ es_W e) [] (pe_Digest (es_PP e)) 1%nat = Ret [x] /\
      es_RO e (ap_Vaggr p ++ ap_Waggr p ++ es_V e ++ es_W e ++ [ap_U p; ap_V p]) [] (pe_Digest (es_PP e)) (2 * 2 ^ k)%nat = Ret ts /\ length ts = (2 * 2 ^ k)%nat /\
      (Forall (fun x => x <> 0) (chal (inst_digest (poe_ipa (es_PP e))) (ipp_LRs (ap_IPP p))) ->
       exists err, Equalities_Verify e p = Ret err /\
         (err = nil_error <-> g1 (dot (odds_loop ts) ((fun t => t_wJ t - t_vI t) <$> its) * α ^ (N + 1) + x * (dot (evens_loop ts) ((fun t => t_ν t * excess (t_i t)) <$> its) + dot (odds_loop ts) ((fun t => t_η t * excess (t_j t)) <$> its))) = gzero)).
  Proof.
    assert (Lits : forall {A} (f : eqItem -> A), length (f <$> its) = (2 ^ k)%nat) by (intros; rewrite fmap_length; done).
    assert (Hk : (1 <= 2 ^ k)%nat) by (pose proof (Nat.pow_nonzero 2 k); lia).
    unfold Equalities_Prove. rewrite HV, HW, !Lits, !Nat.eqb_refl.
    destruct its as [|t0 its'] eqn:Eits; [cbn in Hm; lia|]. rewrite <- Eits in *.
    assert (H0 : its !! 0%nat = Some t0) by (rewrite Eits; done).
    assert (Hn : idx (t_v <$> its) 0 = Ret (t_v t0)) by (apply idx_ret; rewrite list_lookup_fmap, H0; done).
    rewrite Hn. cbn [rbind]. destruct (item_at 0 t0 H0) as (HN & _ & Hi0 & _). rewrite HN.
    rewrite <- Hm. rewrite (mapM_items _ l_iter).
    2:{ intros j t Ht. destruct (item_at j t Ht) as (Hv & Hw & Hi & Hj). unfold poe_iter. rewrite HI, HJ, Hpp.
        assert (Ec : idx ((fun t => (t_u t, t_η t, t_ν t)) <$> its) j = Ret (t_u t, t_η t, t_ν t)) by (apply idx_ret; rewrite list_lookup_fmap, Ht; done).
        assert (Ei : idx (t_i <$> its) j = Ret (t_i t)) by (apply idx_ret; rewrite list_lookup_fmap, Ht; done).
        assert (Ej : idx (t_j <$> its) j = Ret (t_j t)) by (apply idx_ret; rewrite list_lookup_fmap, Ht; done).
        assert (Ev : idx (t_v <$> its) j = Ret (t_v t)) by (apply idx_ret; rewrite list_lookup_fmap, Ht; done).
        assert (Ew : idx (t_w <$> its) j = Ret (t_w t)) by (apply idx_ret; rewrite list_lookup_fmap, Ht; done).
        rewrite Ec, Ei, Ej. cbn [rbind]. unfold pp. rewrite !g1_idx by lia. fold pp. cbn [rbind].
        assert (En : idxZ (pp_G1s pp) (Z.of_nat N - 1) = Ret (g1 (α ^ N))).
        { unfold idxZ. destruct (Z.ltb_spec (Z.of_nat N - 1) 0); [lia|]. replace (Z.to_nat (Z.of_nat N - 1)) with (N - 1)%nat by lia.
          unfold pp. rewrite g1_idx by lia. do 3 f_equal. lia. }
        rewrite En. cbn [rbind]. rewrite !g1_mirror by lia. cbn [rbind]. rewrite Ev, Ew. cbn [rbind].
        unfold pp. rewrite !open_spec by lia. cbn [rbind]. unfold l_iter, Poe_facts.g1. f_equal.
        f_equal; module. }
    cbn [rbind]. rewrite <- HV, <- HW. fold l_first.
    destruct (HRO l_first [] (pe_Digest (es_PP e)) 1%nat) as (xl & Hx & Lx).
    destruct xl as [|x [|]]; try (cbn in Lx; lia). rewrite Hx. cbn [rbind idx lookup list_lookup].
    rewrite (mapM_items _ t_vI).
    2:{ intros j t Ht. destruct (item_at j t Ht) as (Hv & Hw & Hi & Hj). rewrite HI.
        assert (Ei : idx (t_i <$> its) j = Ret (t_i t)) by (apply idx_ret; rewrite list_lookup_fmap, Ht; done).
        assert (Ev : idx (t_v <$> its) j = Ret (t_v t)) by (apply idx_ret; rewrite list_lookup_fmap, Ht; done).
        rewrite Ev, Ei. cbn [rbind]. apply idx_ret. unfold t_vI. rewrite nth_lookup.
        destruct (lookup_lt_is_Some_2 (t_v t) (t_i t) ltac:(lia)) as [y Hy]. rewrite Hy. done. }
    cbn [rbind]. rewrite take_ge by (rewrite fmap_length; done). rewrite <- list_fmap_compose. unfold compose. cbn [fst snd].
    rewrite !mulv_sum by (first [rewrite HG, Lits; done|apply nonempty_len; lia]). cbn [rbind].
    set (U := gadd (gmul r1 _) (msm (_ <$> its) _)). set (V := gadd (gmul r2 _) (msm (_ <$> its) _)).
    destruct (HRO (l_first ++ [U; V]) [] (pe_Digest (es_PP e)) (2 * length its)%nat) as (ts & Ht & Lts).
    rewrite Ht. cbn [rbind]. assert (Hev : Nat.even (length ts) = true) by (rewrite Lts; apply Nat.even_spec; exists (length its); lia).
    destruct (evens_odds_length ts (length its) Lts) as [Le Lo].
    unfold Vec_Evens, Vec_Odds. rewrite Hev. cbn [rbind]. set (te := evens_loop ts) in *. set (to := odds_loop ts) in *.
    rewrite !g1v_mul_spec, <- !list_fmap_compose.
    rewrite !g1v_add_spec by (rewrite gvscale_length, !fmap_length; lia). cbn [rbind].
    unfold compose, l_iter. cbn [it_V it_W it_Ωv it_Ωw it_ΩvPP it_ΩwPP].
    rewrite !gvadd_g1.
    rewrite !mulv_sum by (first [rewrite !fmap_length; lia|apply nonempty_len; rewrite !fmap_length; lia]). cbn [rbind].
    rewrite vec_mul_spec, !vec_add_spec by (rewrite ?vscale_length, !fmap_length; lia). cbn [rbind].
    rewrite vec_add_spec by lia. cbn [rbind].
    set (us := t_u <$> its) in *. set (vI := t_vI <$> its) in *.
    set (a := vadd (vscale x us) vI). set (b := vadd te to).
    assert (La : length a = (2 ^ k)%nat) by (unfold a, us, vI; rewrite vadd_length; rewrite vscale_length, !fmap_length; lia).
    assert (Lb : length b = (2 ^ k)%nat) by (unfold b; rewrite vadd_length; lia).
    rewrite !mulv_sum by (first [lia|apply nonempty_len; lia]). cbn [rbind].
    set (ρ := poe_negZr (r1 * x + r2)). set (P := gadd (gadd (gadd (gmul ρ _) _) _) _).
    unfold poe_bpPP. cbn [RandGenVec seq fmap list_fmap idx rbind lookup list_lookup].
    unfold RecomputeDigest. rewrite setup_digest_spec by (right; cbn [bp_G bp_H]; lia). cbn [rbind bp_G bp_H bp_U].
    fold (poe_ipa (es_PP e)). set (B := poe_ipa (es_PP e)).
    rewrite new_ipa_spec; [|lia|apply nonempty_len; lia|unfold B; cbn [poe_ipa bp_G]; lia|unfold B; cbn [poe_ipa bp_H]; lia].
    cbn [rbind ipa_pp ipa_a ipa_b ipa_C].
    destruct (ipa_honest_body_iff k B a b (dot a b) P (dot a b) P) as (LRs & al & be & Hp & HL & Hver); [done..|].
    rewrite Hp. cbn [rbind]. set (Ω := gadd (msm te _) (msm to _)).
    eexists _, x, ts. split; [reflexivity|]. cbn [ap_IPP ap_U ap_V ap_Vaggr ap_Waggr ipp_LRs ipp_C].
    split; [done|]. 
    assert (Hgs : forall l : list (G1 C), ((fun t : eqItem => g1 (t_u t * α ^ (t_i t + 1) + t_ν t * α ^ N)) <$> its) ++
      ((fun t : eqItem => g1 (t_u t * α ^ (t_j t + 1) + t_η t * α ^ N)) <$> its) ++ es_V e ++ es_W e ++ l = l_first ++ l).
    { intros l. unfold l_first. rewrite <- !list_fmap_compose. unfold compose, l_iter. cbn [it_V it_W]. rewrite <- !app_assoc. done. }
    rewrite Hgs. split; [rewrite <- (app_nil_r l_first) in Hx; rewrite <- (Hgs []) in Hx; rewrite !app_nil_r in Hx; exact Hx|]. split; [exact Ht|]. split; [done|].
    intros Hnz. destruct (Hver Hnz) as (e0 & He0 & Hiff0). clear Hver Hp.
    assert (e0 = nil_error) as ->.
    { apply Hiff0. unfold ipa_com. unfold P, B, poe_ipa. cbn [bp_G bp_H bp_U]. fold (poe_ipa (es_PP e)). fold B.
      unfold U, V, a. rewrite msm_vadd, msm_vscale by (unfold us, vI; rewrite vscale_length, !fmap_length; done).
      fold a. fold us vI. generalize (msm us (pe_G (es_PP e))) (msm vI (pe_G (es_PP e))) (msm b (pe_H (es_PP e))) (inst_x B) (dot a b) (rand_gen (C:=C) "u" 0).
      unfold ρ, poe_negZr. change (IntToZr 0) with 0. generalize (pe_F (es_PP e)). clear. intros. module. }
    unfold Equalities_Verify. cbn [ap_IPP ap_U ap_V ap_Vaggr ap_Waggr ap_Ω ap_c ap_ρ ipp_LRs ipp_C ipp_a ipp_b].
    pose proof (Hgs []) as Hgs0. rewrite !app_nil_r in Hgs0. rewrite Hgs0, Hx. cbn [rbind idx lookup list_lookup].
    assert (LV : length (es_V e) = length its) by (rewrite HV, fmap_length; done). rewrite LV.
    rewrite Ht. cbn [rbind]. unfold poe_g2s.
    rewrite (mapM_items _ (fun t => gmul (α ^ (N - t_i t)) (gen2 C)) its).
    2:{ intros j t Htj. destruct (item_at j t Htj) as (Hv & Hw & Hi & Hj). rewrite HI.
        assert (Ei : idx (t_i <$> its) j = Ret (t_i t)) by (apply idx_ret; rewrite list_lookup_fmap, Htj; done).
        rewrite Ei. cbn [rbind]. rewrite Hpp. unfold pp. rewrite <- (g2_at_spec (C:=C) N α (t_i t)) by lia. unfold g2_at. f_equal. lia. }
    rewrite (mapM_items _ (fun t => gmul (α ^ (N - t_j t)) (gen2 C)) its).
    2:{ intros j t Htj. destruct (item_at j t Htj) as (Hv & Hw & Hi & Hj). rewrite HJ.
        assert (Ei : idx (t_j <$> its) j = Ret (t_j t)) by (apply idx_ret; rewrite list_lookup_fmap, Htj; done).
        rewrite Ei. cbn [rbind]. rewrite Hpp. unfold pp. rewrite <- (g2_at_spec (C:=C) N α (t_j t)) by lia. unfold g2_at. f_equal. lia. }
    cbn [rbind]. unfold Vec_Evens, Vec_Odds. rewrite Hev. cbn [rbind]. fold te to.
    rewrite !g1v_mul_spec, !g1v_add_spec by (rewrite ?HV, ?HW, gvscale_length, !fmap_length; lia). cbn [rbind].
    rewrite HV, HW. fold (g1). change (commitment N α) with (fun v => g1 (dot v (pows α 1 N))). cbn beta.
    rewrite !gvadd_g1.
    rewrite !g1v_mulv_spec by (rewrite !fmap_length; lia). cbn [rbind].
    rewrite !g1v_innerprod_spec by (first [rewrite gvmul_length; rewrite !fmap_length; lia|apply nonempty_len; rewrite gvmul_length; rewrite !fmap_length; lia]).
    cbn [rbind]. rewrite !pairsum_g1. rewrite g1v_innerprod_1. cbn [rbind].
    rewrite Hpp. unfold pp. rewrite g1_idx by lia. cbn [rbind]. rewrite g2_last by lia. cbn [rbind]. rewrite g1v_innerprod_1. cbn [rbind].
    rewrite Nat.sub_0_r. rewrite (pair_mul_l C (dot a b)). rewrite <- (pair_add_l C (g1 _) (g1 _)).
    change (0 + 1)%nat with 1%nat.
    set (AV := dot te ((fun t => α ^ (N - t_i t) * _) <$> its)). set (AW := dot to ((fun t => α ^ (N - t_j t) * _) <$> its)).
    rewrite vec_add_spec by lia. cbn [rbind]. fold b. rewrite mulv_sum by (first [lia|apply nonempty_len; lia]). cbn [rbind].
    unfold poe_bpPP. cbn [RandGenVec seq fmap list_fmap idx rbind lookup list_lookup].
    unfold RecomputeDigest. rewrite setup_digest_spec by (right; cbn [bp_G bp_H]; lia). cbn [rbind bp_G bp_H bp_U].
    fold (poe_ipa (es_PP e)). fold B. fold P. rewrite He0.
    pose proof (pairing_eq N α (gadd (g1 AV) (g1 AW)) Ω (dot a b) ltac:(lia)) as Hpair.
    assert (Hfin : gadd (g1 AV) (g1 AW) = gadd Ω (g1 (dot a b * α ^ (N + 1))) <->
      g1 (dot to ((fun t => t_wJ t - t_vI t) <$> its) * α ^ (N + 1) + x * (dot te ((fun t => t_ν t * excess (t_i t)) <$> its) + dot to ((fun t => t_η t * excess (t_j t)) <$> its))) = gzero).
    { assert (EV : AV = dot te ((fun t => open_exp N α (t_i t) (t_v t) + x * (t_ν t * mirror (t_i t))) <$> its)
        + dot te ((fun t => x * t_u t + t_vI t) <$> its) * α ^ (N + 1) + dot te ((fun t => t_ν t * excess (t_i t)) <$> its) * x).
      { unfold AV. rewrite <- !dot_fmap_scale, <- !dot_fmap_add. apply dot_fmap_ext. intros t Hin.
        apply elem_of_list_lookup in Hin. destruct Hin as [j Hj]. destruct (item_at j t Hj) as (_ & _ & Hi & _).
        pose proof (blind_last (t_i t) x (t_u t) (t_ν t) ltac:(lia)) as B1. pose proof (entry_rel N α (t_i t) (t_v t) ltac:(lia)) as D1.
        transitivity (α ^ (N - t_i t) * dot (t_v t) (pows α 1 N) + α ^ (N - t_i t) * (x * (t_u t * α ^ (t_i t + 1) + t_ν t * α ^ N))); [ring|].
        rewrite B1, D1. unfold t_vI. ring. }
      assert (EW : AW = dot to ((fun t => open_exp N α (t_j t) (t_w t) + x * (t_η t * mirror (t_j t))) <$> its)
        + dot to ((fun t => x * t_u t + t_wJ t) <$> its) * α ^ (N + 1) + dot to ((fun t => t_η t * excess (t_j t)) <$> its) * x).
      { unfold AW. rewrite <- !dot_fmap_scale, <- !dot_fmap_add. apply dot_fmap_ext. intros t Hin.
        apply elem_of_list_lookup in Hin. destruct Hin as [j Hj]. destruct (item_at j t Hj) as (_ & _ & _ & Hi).
        pose proof (blind_last (t_j t) x (t_u t) (t_η t) ltac:(lia)) as B1. pose proof (entry_rel N α (t_j t) (t_w t) ltac:(lia)) as D1.
        transitivity (α ^ (N - t_j t) * dot (t_w t) (pows α 1 N) + α ^ (N - t_j t) * (x * (t_u t * α ^ (t_j t + 1) + t_η t * α ^ N))); [ring|].
        rewrite B1, D1. unfold t_wJ. ring. }
      assert (Ea : a = (fun t => x * t_u t + t_vI t) <$> its).
      { unfold a, us, vI, vscale, vadd. clear. induction its as [|t l IH]; [done|]. cbn [fmap list_fmap zip_with]. f_equal. exact IH. }
      assert (Eab : dot a b = dot te ((fun t => x * t_u t + t_vI t) <$> its) + dot to ((fun t => x * t_u t + t_vI t) <$> its)).
      { unfold b. rewrite dot_vadd_r by lia. rewrite Ea, !(dot_comm ((fun t => x * t_u t + t_vI t) <$> its)). done. }
      assert (Ed : dot to ((fun t => t_wJ t - t_vI t) <$> its) =
        dot to ((fun t => x * t_u t + t_wJ t) <$> its) - dot to ((fun t => x * t_u t + t_vI t) <$> its)).
      { assert (H : dot to ((fun t => t_wJ t - t_vI t) <$> its) + dot to ((fun t => x * t_u t + t_vI t) <$> its) = dot to ((fun t => x * t_u t + t_wJ t) <$> its)).
        { rewrite <- dot_fmap_add. apply dot_fmap_ext. intros t _. ring. }
        rewrite <- H. ring. }
      rewrite Eab, Ed, EV, EW. unfold Ω. unfold Poe_facts.g1.
      change (fun x0 : Zr => gmul x0 (gen1 C)) with g1. rewrite !(msm_common_base _ _ (gen1 C)).
      match goal with |- gadd (gmul (?p1 + ?q1 * ?al + ?r1 * ?x0) _) (gmul (?p2 + ?q2 * _ + ?r2 * _) _) = gadd _ (gmul ((_ + ?q3) * _) _) <-> _ =>
        generalize x0 p1 q1 p2 q2 q3 al r1 r2 end. clear. intros x p1 q1 p2 q2 q3 al r1 r2.
      assert (E : gadd (gmul (p1 + q1 * al + r1 * x) (gen1 C)) (gmul (p2 + q2 * al + r2 * x) (gen1 C)) =
        gadd (gadd (gadd (gmul p1 (gen1 C)) (gmul p2 (gen1 C))) (gmul ((q1 + q3) * al) (gen1 C))) (gmul ((q2 - q3) * al + x * (r1 + r2)) (gen1 C))) by module.
      rewrite E. generalize (gmul ((q2 - q3) * al + x * (r1 + r2)) (gen1 C)). intros D.
      generalize (gadd (gadd (gmul p1 (gen1 C)) (gmul p2 (gen1 C))) (gmul ((q1 + q3) * al) (gen1 C))). intros A. split; intros H.
      - apply (gadd_cancel_l A). rewrite H, gadd_0_r. done.
      - rewrite H, gadd_0_r. done. }
    destruct (geqb _ _) eqn:Eq.
    - exists nil_error. split; [done|]. split; [intros _|done]. apply Hfin, Hpair. done.
    - eexists. split; [done|]. split; [done|]. intros H. apply Hfin, Hpair in H. congruence.
  Qed.
  End Many.
End Last.
