(** The provers return a proof whatever the commitments are, and what ProveLiability returns when the commitment of the
    last vertex is wrong. *)
From Verif Require Export Prop_liability.
From Verif Require Import Prop_total Prop_paths Prop_range Prop_sum Prop_poe Prop_pp Poe_facts Sum_facts Pp_facts Range_prover Prop_params Pol_chain Pol_run.
Local Open Scope Zr_scope.

Section Runs.
  Context {C : Curve}.

  (** sum.NewAggregatedArgument *)
  Lemma sum_runs k (pp : sumPP C) (V : G1 C) v r w r' : sum_wf k pp -> length v = (2 ^ k)%nat -> length w = (2 ^ k)%nat ->
    exists p, sum_NewArgument pp V v r w r' = Ret p /\ length (ipp_LRs (sm_π p)) = (2 * k)%nat.
  Proof.
    intros (HG & HH & Hb & HB) Hv Hw. pose proof (pow2_pos k) as Hk.
    assert (Lb : length (sum_b (2 ^ k)) = (2 ^ k)%nat) by (apply sum_b_length; lia).
    unfold sum_NewArgument. rewrite mulv_sum by (first [lia|apply nonempty_len; lia]). cbn [rbind].
    rewrite Hb, vec_innerprod_spec by lia. cbn [rbind]. unfold randomOracleCVW. rewrite fe_sha. cbn [rbind].
    rewrite sum_ipaPP_spec by lia. cbn [rbind]. rewrite vec_mul_spec, vec_add_spec by (rewrite vscale_length; lia). cbn [rbind].
    set (a := vadd v _). assert (La : length a = (2 ^ k)%nat) by (unfold a; rewrite vadd_length; rewrite ?vscale_length; lia).
    rewrite new_ipa_spec; [|lia|apply nonempty_len; lia|cbn [sum_ipa bp_G]; lia|cbn [sum_ipa bp_H]; lia]. cbn [rbind].
    destruct (ipa_honest_body_iff k (sum_ipa pp) a (sum_b (2 ^ k)) (dot a (sum_b (2 ^ k)))
      (gadd (msm a (bp_G (sum_ipa pp))) (msm (sum_b (2 ^ k)) (bp_H (sum_ipa pp)))) 0 gzero) as (LRs & al & be & Hp & HL & _); [done..|].
    rewrite Hp. cbn [rbind]. eexists. split; [reflexivity|done].
  Qed.
  Lemma aggregated_sum_runs k (pp : sumPP C) (V : list (G1 C)) v r w r' : sum_params k pp -> v <> [] -> length V = length v ->
    Forall (fun x => length x = (2 ^ k)%nat) v -> length r = length v -> length w = (2 ^ k)%nat ->
    exists p, sum_NewAggregatedArgument pp V v r w r' = Ret p /\ length (ipp_LRs (sm_π p)) = (2 * k)%nat.
  Proof.
    intros Hpp Hne LV Hl Hr Hw. apply sum_params_wf in Hpp. unfold sum_NewAggregatedArgument. rewrite hvzk_spec. cbn [rbind].
    set (t := PowerSeries (length v) (sum_τ V)). assert (Lt : length t = length v) by apply power_series_length.
    assert (HVne : V <> []) by (apply nonempty_len; rewrite LV; destruct v; [done|cbn; lia]).
    destruct v as [|v0 v']; [done|]. cbn [idx lookup list_lookup rbind].
    assert (L0 : length v0 = (2 ^ k)%nat) by (apply Forall_cons in Hl; apply Hl). rewrite L0.
    rewrite aggr_spec by done. cbn [rbind]. rewrite vec_innerprod_spec by lia. cbn [rbind].
    rewrite mulv_sum by (done || lia). cbn [rbind]. apply sum_runs; [done|by apply aggr_length|done].
  Qed.

  (** Equalities.Prove *)
  Lemma equalities_run N α (e : Equalities C) (its : list eqItem) k r1 r2 :
    oracle_ok (es_RO e) -> pe_PP (es_PP e) = NewPublicParams N α -> length (pe_G (es_PP e)) = (2 ^ k)%nat -> length (pe_H (es_PP e)) = (2 ^ k)%nat ->
    length its = (2 ^ k)%nat -> Forall (item_ok N) its -> length (es_V e) = (2 ^ k)%nat -> length (es_W e) = (2 ^ k)%nat ->
    es_I e = t_i <$> its -> es_J e = t_j <$> its ->
    exists p, Equalities_Prove e (t_v <$> its) (t_w <$> its) ((fun t => (t_u t, t_η t, t_ν t)) <$> its) r1 r2 = Ret p /\ equality_shape k p.
  Proof.
    intros HRO Hpp HG HH Hm Hok LV LW HI HJ.
    assert (Lits : forall {A} (f : eqItem -> A), length (f <$> its) = (2 ^ k)%nat) by (intros; rewrite fmap_length; done).
    assert (Hk : (1 <= 2 ^ k)%nat) by (pose proof (Nat.pow_nonzero 2 k); lia).
    assert (item_at : forall j t, its !! j = Some t -> item_ok N t) by (intros j t; by apply Forall_lookup_1).
    unfold Equalities_Prove. rewrite LV, LW, !Lits, !Nat.eqb_refl.
    destruct its as [|t0 its'] eqn:Eits; [cbn in Hm; lia|]. rewrite <- Eits in *.
    assert (H0 : its !! 0%nat = Some t0) by (rewrite Eits; done).
    assert (Hn : idx (t_v <$> its) 0 = Ret (t_v t0)) by (apply idx_ret; rewrite list_lookup_fmap, H0; done).
    rewrite Hn. cbn [rbind]. destruct (item_at 0%nat t0 H0) as (HN & _ & Hi0 & _). rewrite HN.
    rewrite <- Hm. rewrite (mapM_items _ (t_iter N α)).
    2:{ intros j t Ht. destruct (item_at j t Ht) as (Hv & Hw & Hi & Hj). unfold poe_iter. rewrite HI, HJ, Hpp.
        assert (Ec : idx ((fun t => (t_u t, t_η t, t_ν t)) <$> its) j = Ret (t_u t, t_η t, t_ν t)) by (apply idx_ret; rewrite list_lookup_fmap, Ht; done).
        assert (Ei : idx (t_i <$> its) j = Ret (t_i t)) by (apply idx_ret; rewrite list_lookup_fmap, Ht; done).
        assert (Ej : idx (t_j <$> its) j = Ret (t_j t)) by (apply idx_ret; rewrite list_lookup_fmap, Ht; done).
        assert (Ev : idx (t_v <$> its) j = Ret (t_v t)) by (apply idx_ret; rewrite list_lookup_fmap, Ht; done).
        assert (Ew : idx (t_w <$> its) j = Ret (t_w t)) by (apply idx_ret; rewrite list_lookup_fmap, Ht; done).
        rewrite Ec, Ei, Ej. cbn [rbind]. rewrite !g1_idx by lia. cbn [rbind].
        assert (En : idxZ (pp_G1s (NewPublicParams (C:=C) N α)) (Z.of_nat N - 1) = Ret (g1 (α ^ N))).
        { unfold idxZ. destruct (Z.ltb_spec (Z.of_nat N - 1) 0); [lia|]. replace (Z.to_nat (Z.of_nat N - 1)) with (N - 1)%nat by lia.
          rewrite g1_idx by lia. do 3 f_equal. lia. }
        rewrite En. cbn [rbind]. rewrite !g1_last by lia. cbn [rbind]. rewrite Ev, Ew. cbn [rbind].
        rewrite !open_spec by lia. cbn [rbind]. unfold t_iter, g1. f_equal.
        f_equal; module. }
    cbn [rbind]. set (gs := _ ++ _ ++ es_V e ++ es_W e).
    destruct (HRO gs [] (pe_Digest (es_PP e)) 1%nat) as (xl & Hx & Lx).
    destruct xl as [|x [|]]; try (cbn in Lx; lia). rewrite Hx. cbn [rbind idx lookup list_lookup].
    rewrite (mapM_items _ t_vI).
    2:{ intros j t Ht. destruct (item_at j t Ht) as (Hv & Hw & Hi & Hj). rewrite HI.
        assert (Ei : idx (t_i <$> its) j = Ret (t_i t)) by (apply idx_ret; rewrite list_lookup_fmap, Ht; done).
        assert (Ev : idx (t_v <$> its) j = Ret (t_v t)) by (apply idx_ret; rewrite list_lookup_fmap, Ht; done).
        rewrite Ev, Ei. cbn [rbind]. apply idx_ret. unfold t_vI. rewrite nth_lookup.
        destruct (lookup_lt_is_Some_2 (t_v t) (t_i t) ltac:(lia)) as [y Hy]. rewrite Hy. done. }
    cbn [rbind]. rewrite take_ge by (rewrite fmap_length; done). rewrite <- list_fmap_compose. unfold compose. cbn [fst snd].
    rewrite !mulv_sum by (first [rewrite HG, Lits; done|apply nonempty_len; lia]). cbn [rbind].
    set (U := gadd (gmul r1 _) (msm (_ <$> its) _)). set (V := gadd (gmul r2 _) (msm (_ <$> its) _)).
    destruct (HRO (gs ++ [U; V]) [] (pe_Digest (es_PP e)) (2 * length its)%nat) as (ts & Ht & Lts).
    rewrite Ht. cbn [rbind]. assert (Hev : Nat.even (length ts) = true) by (rewrite Lts; apply Nat.even_spec; exists (length its); lia).
    destruct (evens_odds_length ts (length its) Lts) as [Le Lo].
    unfold Vec_Evens, Vec_Odds. rewrite Hev. cbn [rbind]. set (te := evens_loop ts) in *. set (to := odds_loop ts) in *.
    rewrite !g1v_mul_spec, <- !list_fmap_compose.
    rewrite !g1v_add_spec by (rewrite gvscale_length, !fmap_length; lia). cbn [rbind].
    unfold compose, t_iter. cbn [it_V it_W it_Ωv it_Ωw it_ΩvPP it_ΩwPP].
    rewrite !gvadd_g1.
    rewrite !mulv_sum by (first [rewrite !fmap_length; lia|apply nonempty_len; rewrite !fmap_length; lia]). cbn [rbind].
    rewrite vec_mul_spec, !vec_add_spec by (rewrite ?vscale_length, !fmap_length; lia). cbn [rbind].
    rewrite vec_add_spec by lia. cbn [rbind].
    set (us := t_u <$> its) in *. set (vI := t_vI <$> its) in *.
    set (a := vadd (vscale x us) vI). set (b := vadd te to).
    assert (La : length a = (2 ^ k)%nat) by (unfold a, us, vI; rewrite vadd_length; rewrite vscale_length, !fmap_length; lia).
    assert (Lb : length b = (2 ^ k)%nat) by (unfold b; rewrite vadd_length; lia).
    rewrite !mulv_sum by (first [lia|apply nonempty_len; lia]). cbn [rbind].
    set (ρ := poe_negZr (r1 * x + r2)). set (P := gadd (gadd (gadd (gmul ρ _) _) _) _).
    unfold poe_bpPP. cbn [RandGenVec seq fmap list_fmap idx rbind lookup list_lookup].
    unfold RecomputeDigest. rewrite setup_digest_spec by (right; cbn [bp_G bp_H]; lia). cbn [rbind bp_G bp_H bp_U].
    fold (poe_ipa (es_PP e)). set (B := poe_ipa (es_PP e)).
    rewrite new_ipa_spec; [|lia|apply nonempty_len; lia|unfold B; cbn [poe_ipa bp_G]; lia|unfold B; cbn [poe_ipa bp_H]; lia].
    cbn [rbind ipa_pp ipa_a ipa_b ipa_C].
    destruct (ipa_honest_body_iff k B a b (dot a b) P (dot a b) P) as (LRs & al & be & Hp & HL & _); [done..|].
    rewrite Hp. cbn [rbind]. eexists. split; [reflexivity|]. unfold equality_shape. cbn [ap_IPP ipp_LRs ap_Vaggr ap_Waggr]. rewrite !fmap_length. lia.
  Qed.

  (** A range proof about a vertex, whatever its first commitment *)
  Lemma range_run F α n k (pp : PolPP C) (w : Vertex C) co : params_ok F α n k pp -> ranged F w -> coins_ok (2 ^ k) co ->
    exists rp, (exists ipaPP, ProveRange_unchecked (po_RPPP pp) (v_V w) (Vertex_Values w (F + 1)) (v_bf w) co = Ret (rp, ipaPP)) /\ range_shape k rp /\
      (nonzero (range_challenges (po_RPPP pp) rp (v_V w)) -> ProveRange (po_RPPP pp) (v_V w) (Vertex_Values w (F + 1)) (v_bf w) co = Ret rp).
  Proof.
    intros Hp Hr Hco. pose proof Hp as (EF & _ & _ & _ & HR & _). apply params_for_wf in HR.
    destruct (prove_range_run k (po_RPPP pp) (v_V w) (Vertex_Values w (F + 1)) (v_bf w) co HR Hco) as (rp & H1 & H2 & H3 & H4 & _).
    { rewrite (values_length F w). done. }
    { eapply Forall_impl; [exact Hr|]. intros x Hx. exact Hx. }
    exists rp. split; [eauto|]. split; [split; lia|]. intros Hnz. unfold ProveRange. rewrite H1. cbn [rbind]. rewrite H4; [done|].
    unfold range_challenges in Hnz. apply Forall_cons in Hnz as [_ Hnz]. by apply Forall_app in Hnz as [_ Hnz].
  Qed.
  Lemma sum_argument_run F α n k (pp : PolPP C) (ws : list (Vertex C)) w r' : params_ok F α n k pp -> ws <> [] -> length w = (2 ^ k)%nat ->
    exists p, SumArgument ws (po_SAPP pp) w r' = Ret p /\ sum_shape k p.
  Proof.
    intros Hp Hne Hw. pose proof Hp as (EF & _ & _ & _ & _ & HS & _). unfold SumArgument. rewrite (proj1 (proj2 HS)), <- EF.
    destruct (aggregated_sum_runs k (po_SAPP pp) (v_V <$> ws) ((fun v => Vertex_Values v (F + 1)) <$> ws) (v_bf <$> ws) w r' HS) as (p & H1 & H2); [by destruct ws|by rewrite !fmap_length| |by rewrite !fmap_length|done|].
    - apply Forall_fmap, Forall_forall. intros v _. cbn. rewrite (values_length F v). done.
    - exists p. split; [exact H1|]. unfold sum_shape. lia.
  Qed.
  Lemma equality_argument_run F α n k j (pp : PolPP C) p (ws : list (Vertex C)) coins r1 r2 : params_ok F α n k pp -> length (pe_G (po_POEPP pp)) = (2 ^ j)%nat ->
    length p = n -> (2 <= n)%nat -> Forall (fun i => i < F)%nat p -> length ws = n -> length coins = (2 ^ j)%nat ->
    exists eqs vEQ wEQ prf, prove_equalities pp p ws = Ret (eqs, vEQ, wEQ) /\ Equalities_Prove eqs vEQ wEQ coins r1 r2 = Ret prf /\ equality_shape j prf.
  Proof.
    intros Hp Hj Hl Hn Hpath Hws Hc. destruct (eq_params F α n k pp Hp) as (j' & zc & Hpoe & Hpad & Hle & Hzc).
    assert (j' = j) as ->. { pose proof Hpoe as (_ & HG & _). rewrite Hj in HG. apply Nat.pow_inj_r in HG; lia. }
    destruct (eq_pairs0 F α n k pp Hp j zc p ws Hpoe Hpad Hle Hzc Hl Hn Hpath Hws) as (P1 & P2 & _ & _ & _ & _ & P8 & _).
    set (prs := path_pairs F n (2 ^ j) p ws) in *. set (its := zip_with to_item prs coins).
    assert (Ei : forall {A} (f : eqItem -> A) (g : eqPair -> A), (forall p c, f (to_item p c) = g p) -> f <$> its = g <$> prs)
      by (intros; apply zip_fmap_l; [lia|done]).
    assert (Lits : length its = (2 ^ j)%nat) by (unfold its; rewrite zip_with_length; lia).
    assert (Hvec : Forall (fun q => length (pr_v q) = (F + 2)%nat /\ length (pr_w q) = (F + 2)%nat) prs).
    { unfold prs, path_pairs. apply Forall_app. split; [apply Forall_fmap, Forall_forall; intros t _; cbn; rewrite !values_vec_length; done|]. apply Forall_replicate. cbn. rewrite zeros_len. done. }
    destruct Hpoe as (HPP & HG & HH).
    destruct (equalities_run (F + 2) α (eq_statement poe_RO (po_POEPP pp) (path_V n (2 ^ j) zc (v_V <$> ws)) (path_V n (2 ^ j) zc (drop 1 (v_V <$> ws))) prs) its j r1 r2)
      as (prf & E & Hsh); cbn [es_RO es_PP es_V es_W es_I es_J eq_statement].
    - apply C28_package_oracle.
    - exact HPP.
    - exact HG.
    - exact HH.
    - exact Lits.
    - apply Forall_lookup. intros i t Ht. unfold its in Ht. rewrite lookup_zip_with in Ht.
      destruct (prs !! i) as [q|] eqn:Eq; [|done]. destruct (coins !! i); [|done]. cbn in Ht. injection Ht as <-.
      rewrite Forall_lookup in Hvec, P2. destruct (Hvec _ _ Eq). destruct (P2 _ _ Eq) as [Hi1 Hi2]. unfold item_ok, to_item. cbn. lia.
    - unfold path_V. rewrite app_length, take_length, replicate_length, fmap_length. lia.
    - unfold path_V. rewrite app_length, take_length, replicate_length, drop_length, fmap_length. lia.
    - symmetry. apply Ei. done.
    - symmetry. apply Ei. done.
    - rewrite (Ei _ t_v pr_v) in E by done. rewrite (Ei _ t_w pr_w) in E by done.
      assert (Ec : (fun t => (t_u t, t_η t, t_ν t)) <$> its = coins).
      { unfold its. rewrite (zip_fmap_r _ _ id) by (try lia; intros a [[? ?] ?]; done). apply list_fmap_id. }
      rewrite Ec in E. eexists _, _, _, prf. split; [exact P8|]. split; [exact E|exact Hsh].
  Qed.

  (** The opening of the liability passes the last check of the verifier exactly if the commitment of the last vertex is right. *)
  Lemma last_check F α (w : Vertex C) i z : α <> 0 -> (i < F)%nat -> values_vec F w !! i = Some (zr z) ->
    Verify (NewPublicParams (F + 2) α) (zr z) (gmul (open_exp (F + 2) α i (values_vec F w)) (gen1 C)) (v_V w) i = Ret nil_error <-> v_V w = commitment (F + 2) α (values_vec F w).
  Proof.
    intros Hα Hi Hz.
    assert (Hc : Verify (NewPublicParams (C:=C) (F + 2) α) (zr z) (gmul (open_exp (F + 2) α i (values_vec F w)) (gen1 C)) (commitment (F + 2) α (values_vec F w)) i = Ret nil_error).
    { destruct (C07_honest_openings_verify C (F + 2) α (values_vec F w) i) as (cm & mi & π & H1 & H2 & H3 & H4); [lia|apply values_vec_length|lia|].
      rewrite commit_spec in H1 by (rewrite ?values_vec_length; lia). injection H1 as <-. rewrite open_spec in H2 by (rewrite ?values_vec_length; lia). injection H2 as <- <-.
      rewrite nth_lookup, Hz in H4. exact H4. }
    split; [|intros ->; exact Hc]. intros H. apply verify_iff in H, Hc; [|lia..]. rewrite <- Hc in H.
    apply gsub_eq_0. assert (E : gmul (α ^ (F + 2 - i)) (gadd (v_V w) (gopp (commitment (F + 2) α (values_vec F w)))) = gzero).
    { rewrite gmul_add_r, H. rewrite <- gmul_add_r, gadd_opp_r. apply gmul_zero || module. }
    apply gmul_eq_0 in E as [E|E]; [|exact E]. destruct (zpow_neq_0 α (F + 2 - i) Hα E).
  Qed.

  Section Run0.
    Variable (F : nat) (α : Zr) (k j : nat) (pp : PolPP C) (p : path) (ws : list (Vertex C)) (z : Z) (co : ProofCoins).
    Let n := length p.
    Hypothesis (Hp : params_ok F α n k pp) (Hj : length (pe_G (po_POEPP pp)) = (2 ^ j)%nat) (Hn : (2 <= n)%nat) (Hch : chain0 F α p ws z) (Hco : coins_fit pp co).

    Lemma ranges_run : exists rps, length rps = n /\ Forall (range_shape k) rps /\
      (forall i w rp, ws !! i = Some w -> rps !! i = Some rp ->
        (exists ipaPP, ProveRange_unchecked (po_RPPP pp) (v_V w) (Vertex_Values w (F + 1)) (v_bf w) (pc_range co i) = Ret (rp, ipaPP)) /\
        (nonzero (range_challenges (po_RPPP pp) rp (v_V w)) ->
         ProveRange (po_RPPP pp) (v_V w) (Vertex_Values w (F + 1)) (v_bf w) (pc_range co i) = Ret rp)).
    Proof.
      destruct Hco as (Hcr & _). pose proof Hp as (_ & _ & _ & _ & HR & _). rewrite (proj1 (proj2 HR)) in Hcr.
      destruct Hch as [L _ _ _ Hr _ _ _ _ _]. rewrite Forall_lookup in Hr.
      destruct (list_choice (fun i w rp => (exists ipaPP, ProveRange_unchecked (po_RPPP pp) (v_V w) (Vertex_Values w (F + 1)) (v_bf w) (pc_range co i) = Ret (rp, ipaPP)) /\ range_shape k rp /\
        (nonzero (range_challenges (po_RPPP pp) rp (v_V w)) ->
         ProveRange (po_RPPP pp) (v_V w) (Vertex_Values w (F + 1)) (v_bf w) (pc_range co i) = Ret rp)) ws) as (rps & Hl & H).
      { intros i w Hw. apply (range_run F α n k pp w); eauto. }
      exists rps. split; [unfold n; lia|]. split.
      - apply Forall_lookup. intros i rp Hrp. destruct (lookup_lt_is_Some_2 ws i) as [w Hw]; [apply lookup_lt_Some in Hrp; lia|]. apply (H i w rp Hw Hrp).
      - intros i w rp Hw Hrp. destruct (H i w rp Hw Hrp) as (H1 & _ & H2). done.
    Qed.
    Lemma proof_run rps ls id id2path : length rps = n -> Forall (range_shape k) rps ->
      (forall i w rp, ws !! i = Some w -> rps !! i = Some rp -> ProveRange (po_RPPP pp) (v_V w) (Vertex_Values w (F + 1)) (v_bf w) (pc_range co i) = Ret rp) ->
      id2path id = Ret p -> VGet (C:=C) id2path (ls_tree ls) id = Ret (Some (z, ws)) ->
      exists lp wl il, ProveLiability pp id2path co ls id = Ret (Some (z, lp)) /\ lp_RangeProofs lp = rps /\ lp_V lp = v_V <$> ws /\ liability_shape n k j lp /\
        last ws = Some wl /\ last p = Some il /\ lp_Liability lp = MkTP (gmul (open_exp (F + 2) α il (values_vec F wl)) (gen1 C)) z.
    Proof.
      intros Lr Hsh HR Hid HG. pose proof Hch as [L Hpath _ _ _ _ _ _ _ _]. destruct Hco as (_ & Hcw & Hce). pose proof Hp as (EF & _ & _ & HPP & _ & HS & _). rewrite (proj1 (proj2 HS)) in Hcw. rewrite Hj in Hce.
      destruct (exists_last (l := ws)) as (ws0 & wl & Ews); [intros E; rewrite E in L; cbn in L; unfold n in Hn; lia|].
      destruct (exists_last (l := p)) as (p0 & il & Ep); [intros E; unfold n in Hn; rewrite E in Hn; cbn in Hn; lia|].
      destruct (sum_argument_run F α n k pp ws (pc_w co) (pc_r' co) Hp ltac:(rewrite Ews; by destruct ws0) Hcw) as (sumArg & Hsum & Hss).
      destruct (equality_argument_run F α n k j pp p ws (pc_eq co) (pc_r1 co) (pc_r2 co) Hp Hj Logic.eq_refl Hn Hpath L Hce) as (eqs & vEQ & wEQ & eqp & He1 & He2 & He3).
      assert (L0 : length ws0 = length p0) by (rewrite Ews, Ep, !app_length in L; cbn in L; lia).
      assert (Hne : ws0 <> []) by (intros E; rewrite E in L0; unfold n in Hn; rewrite Ep, app_length in Hn; cbn in *; lia).
      destruct (agg_part F α n k pp Hp (digests_vec F <$> ws0) p0) as (π & Hagg & _).
      { by destruct ws0. } { apply Forall_fmap, Forall_forall. intros w _. apply digests_vec_length. } { rewrite Ep in Hpath. by apply Forall_app in Hpath as [Hpath _]. } { by rewrite fmap_length. }
      eexists _, wl, il. split; [|split; [|split; [|split; [|split; [|split]]]]].
      - rewrite (prove_form0 F α k pp p ws z co Hp Hn Hch ls id id2path ws0 wl p0 il Hid HG Ews Ep). fold n.
        replace (mapM _ (seq 0 n)) with (Ret rps).
        2: { rewrite <- Lr. rewrite (mapM_items _ (fun x => x) rps); [rewrite list_fmap_id; done|]. intros i rp Hrp. destruct (lookup_lt_is_Some_2 ws i) as [w Hw]; [apply lookup_lt_Some in Hrp; unfold n in *; lia|].
             unfold idx. rewrite Hw. cbn [rbind]. by apply HR. }
        cbn [rbind]. rewrite Hagg. cbn [rbind]. rewrite Hsum. cbn [rbind]. rewrite He1. cbn [rbind]. rewrite He2. cbn [rbind]. reflexivity.
      - reflexivity.
      - reflexivity.
      - unfold liability_shape. cbn [lp_V lp_RangeProofs lp_sum lp_Eq]. rewrite fmap_length. split; [unfold n; lia|]. split; [lia|]. split; [by apply Forall_take|]. done.
      - rewrite Ews. apply last_snoc.
      - rewrite Ep. apply last_snoc.
      - reflexivity.
    Qed.
    (** If a proof is returned, all range proofs were. *)
    Lemma proof_run_inv (rps : list (RangeProof C)) ls id id2path z' lp : 
      (forall i w rp, ws !! i = Some w -> rps !! i = Some rp -> exists ipaPP, ProveRange_unchecked (po_RPPP pp) (v_V w) (Vertex_Values w (F + 1)) (v_bf w) (pc_range co i) = Ret (rp, ipaPP)) ->
      id2path id = Ret p -> VGet (C:=C) id2path (ls_tree ls) id = Ret (Some (z, ws)) -> ProveLiability pp id2path co ls id = Ret (Some (z', lp)) ->
      forall i w rp, ws !! i = Some w -> rps !! i = Some rp -> ProveRange (po_RPPP pp) (v_V w) (Vertex_Values w (F + 1)) (v_bf w) (pc_range co i) = Ret rp.
    Proof.
      intros Hrps Hid HG HP i w rp Hw Hrp. pose proof (c0_len _ _ _ _ _ Hch) as L. unfold ProveLiability in HP. rewrite Hid in HP. cbn [rbind] in HP. rewrite HG in HP. cbn [rbind] in HP. rewrite (proj2 (Nat.leb_le 1 (length p))) in HP by (unfold n in Hn; lia).
      apply rbind_inv in HP as (vs & _ & HP). apply rbind_inv in HP as (rps' & HP & _). pose proof (lookup_lt_Some _ _ _ Hw) as Hi.
      destruct (mapM_lookup _ _ _ i i HP) as (rp' & Hrp' & Hf); [apply lookup_seq; lia|]. unfold idx in Hf. rewrite Hw in Hf. cbn [rbind] in Hf. unfold prove_range_of in Hf. rewrite (pp_fanout F α _ k pp Hp) in Hf.
      destruct (Hrps i w rp Hw Hrp) as (ipaPP & Hun). rewrite Hf. unfold ProveRange in Hf. rewrite Hun in Hf. cbn [rbind] in Hf. apply rbind_inv in Hf as (e & _ & Hf). destruct e; [|done]. congruence.
    Qed.
  End Run0.
End Runs.
