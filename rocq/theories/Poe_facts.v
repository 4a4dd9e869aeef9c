(** Facts about the model of poe/poe.go. *)
From Verif Require Export Model_poe.
Local Open Scope Zr_scope.

(** The oracle answers every query with as many scalars as asked. *)
Definition oracle_ok {C : Curve} (RO : poeRO C) : Prop :=
  forall gs is d n, exists l, RO gs is d n = Ret l /\ length l = n.
Lemma poe_RO_spec {C : Curve} gs is d n :
  poe_RO (C:=C) gs is d n = Ret ((fun i => fe (hmac C (compressParameters gs is d) (be_bytes 2 (Z.of_nat i)))) <$> seq 0 n).
Proof. unfold poe_RO. apply mapM_ret. intros i _. with_strategy transparent [fe] unfold fe. apply fe_spec. apply hmac_len. Qed.
Lemma poe_RO_ok {C : Curve} : oracle_ok (C:=C) poe_RO.
Proof. intros gs is d n. rewrite poe_RO_spec. eexists. split; [done|]. rewrite fmap_length, seq_length. done. Qed.
Lemma evens_odds_length (l : list Zr) m : length l = (2 * m)%nat -> length (evens_loop l) = m /\ length (odds_loop l) = m.
Proof.
  revert l. induction m as [|m IH]; intros [|x [|y l]] H; cbn in H; try lia; [done|].
  cbn [evens_loop odds_loop length]. destruct (IH l) as [H1 H2]; [lia|]. lia.
Qed.

Section Poe.
  Context {C : Curve} (N : nat) (α : Zr).
  Let pp := NewPublicParams (C:=C) N α.
  Definition g1 (x : Zr) : G1 C := gmul x (gen1 C).

  Lemma g2_last i : (i < N)%nat -> idx_last (pp_G2s pp) i = Ret (gmul (α ^ (N - i)) (gen2 C)).
  Proof.
    intros H. rewrite <- (g2_at_spec (C:=C) N α i H). unfold idx_last, g2_at, pp. rewrite pp_G2s_length. f_equal. cbn. lia.
  Qed.
  Lemma g1_idx i : (i < N)%nat -> idx (pp_G1s pp) i = Ret (g1 (α ^ (i + 1))).
  Proof. intros H. apply idx_ret. apply pp_G1s_lookup_lo. done. Qed.
  Lemma g1_last i : (i + 1 < N)%nat -> idx_last (pp_G1s pp) i = Ret (g1 (α ^ (2 * N - i))).
  Proof.
    intros H. assert (HL : length (pp_G1s pp) = (2 * N)%nat) by (apply pp_G1s_length; lia). unfold idx_last, idxZ. rewrite HL.
    destruct (Z.ltb_spec (Z.of_nat (2 * N) - 1 - Z.of_nat i) 0); [lia|]. apply idx_ret.
    replace (Z.to_nat (Z.of_nat (2 * N) - 1 - Z.of_nat i)) with (2 * N - i - 1)%nat by lia.
    unfold pp. rewrite pp_G1s_lookup_hi by lia. unfold g1. do 3 f_equal. lia.
  Qed.

  (** e(A, g2^a) + e(B, g2^b) = e(Ω, g2) + e(g1^α, g2^(α^N))^c as an equation in G1 *)
  Lemma pairing_eq (A Ω : G1 C) c : (1 <= N)%nat ->
    geqb (pair C A (gen2 C)) (gadd (pair C Ω (gen2 C)) (gmul c (pair C (g1 (α ^ 1)) (gmul (α ^ N) (gen2 C))))) = true <->
    A = gadd Ω (g1 (c * α ^ (N + 1))).
  Proof.
    intros HN. rewrite geqb_eq.
    assert (E : gmul c (pair C (g1 (α ^ 1)) (gmul (α ^ N) (gen2 C))) = pair C (g1 (c * α ^ (N + 1))) (gen2 C)).
    { unfold g1. rewrite pair_mul_r, !pair_mul_l. rewrite <- !gmul_mul. f_equal. rewrite (zpow_add α N 1). ring. }
    rewrite E, <- pair_add_l. split; [|intros ->; done].
    intros E2. apply gsub_eq_0. apply pair_gen2_inj. rewrite pair_add_l, pair_opp_l, E2. apply gadd_opp_r.
  Qed.

  (** the entry opening relation *)
  Lemma entry_rel i v : (i < N)%nat -> α ^ (N - i) * dot v (pows α 1 N) = open_exp N α i v + nth i v 0 * α ^ (N + 1).
  Proof. intros _. unfold open_exp. ring. Qed.
  Lemma blind_rel i (x u ν : Zr) : (i < N)%nat ->
    α ^ (N - i) * (x * (u * α ^ (i + 1) + ν * α ^ N)) = x * u * α ^ (N + 1) + x * ν * α ^ (2 * N - i).
  Proof.
    intros H. replace (N + 1)%nat with ((N - i) + (i + 1))%nat by lia. replace (2 * N - i)%nat with ((N - i) + N)%nat by lia.
    rewrite !zpow_add. ring.
  Qed.

  Section One.
  Context (e : Equality C) (HRO : oracle_ok (eq_RO e)) (Hpp : pe_PP (eq_PP e) = pp) (HI : (eq_I e < N)%nat) (HJ : (eq_J e < N)%nat).

  Lemma equality_verify_spec Υ : exists x t0 t1 rest,
    eq_RO e [eq_V e; eq_W e; ep_V Υ; ep_W Υ] [] (pe_Digest (eq_PP e)) 1%nat = Ret [x] /\
    eq_RO e [eq_V e; eq_W e; gmul x (ep_V Υ); gmul x (ep_W Υ); g1 (ep_C Υ)] [eq_I e; eq_J e] (pe_Digest (eq_PP e)) 2%nat = Ret (t0 :: t1 :: rest) /\
    exists err, Equality_Verify e Υ = Ret err /\
    (err = nil_error <->
     gadd (gmul (α ^ (N - eq_I e) * t0) (gadd (gmul x (ep_V Υ)) (eq_V e))) (gmul (α ^ (N - eq_J e) * t1) (gadd (gmul x (ep_W Υ)) (eq_W e)))
     = gadd (ep_Ω Υ) (g1 (ep_C Υ * (t0 + t1) * α ^ (N + 1)))).
  Proof.
    destruct (HRO [eq_V e; eq_W e; ep_V Υ; ep_W Υ] [] (pe_Digest (eq_PP e)) 1%nat) as (xl & Hx & Lx).
    destruct xl as [|x [|]]; try (cbn in Lx; lia). 
    destruct (HRO [eq_V e; eq_W e; gmul x (ep_V Υ); gmul x (ep_W Υ); g1 (ep_C Υ)] [eq_I e; eq_J e] (pe_Digest (eq_PP e)) 2%nat) as (ts & Ht & Lt).
    destruct ts as [|t0 [|t1 rest]]; try (cbn in Lt; lia).
    exists x, t0, t1, rest. split; [done|]. split; [done|].
    unfold Equality_Verify. rewrite Hx. cbn [rbind idx lookup list_lookup]. fold (g1 (ep_C Υ)). rewrite Ht. cbn [rbind idx lookup list_lookup].
    rewrite Hpp, !g2_last by lia. cbn [rbind]. rewrite !g1v_innerprod_1. cbn [rbind].
    rewrite g1_idx by lia. cbn [rbind]. rewrite !g1v_innerprod_1. cbn [rbind]. rewrite Nat.sub_0_r.
    set (K := gmul (ep_C Υ * (t0 + t1)) (pair C _ _)).
    rewrite !pair_mul_r, <- !pair_mul_l, <- pair_add_l. rewrite <- !gmul_mul. unfold K. clear K.
    set (A := gadd (gmul _ _) (gmul _ _)). change (0 + 1)%nat with 1%nat.
    pose proof (pairing_eq A (ep_Ω Υ) (ep_C Υ * (t0 + t1)) ltac:(lia)) as Hp.
    destruct (geqb _ _) eqn:E.
    - eexists. split; [done|]. split; [intros _|done]. apply Hp. done.
    - eexists. split; [done|]. split; [done|]. intros H. apply Hp in H. congruence.
  Qed.

  (** The prover's run, without the check of line 347. *)
  Lemma equality_prove_spec v w u η ν : (eq_I e + 1 < N)%nat -> (eq_J e + 1 < N)%nat -> length v = N -> length w = N ->
    nth (eq_I e) v 0 = nth (eq_J e) w 0 ->
    exists Υ, Equality_Prove e v w u η ν = Ret Υ /\
      (eq_V e = commitment N α v -> eq_W e = commitment N α w -> Equality_Verify e Υ = Ret nil_error).
  Proof.
    intros HI1 HJ1 Hv Hw Heq. unfold Equality_Prove.
    destruct (lookup_lt_is_Some_2 v (eq_I e) ltac:(lia)) as [vI HvI]. destruct (lookup_lt_is_Some_2 w (eq_J e) ltac:(lia)) as [wJ HwJ].
    assert (EvI : nth (eq_I e) v 0 = vI) by (rewrite nth_lookup, HvI; done).
    assert (EwJ : nth (eq_J e) w 0 = wJ) by (rewrite nth_lookup, HwJ; done).
    rewrite (idx_ret _ _ _ HvI), (idx_ret _ _ _ HwJ). cbn [rbind]. rewrite (proj2 (zeqb_eq vI wJ)) by congruence.
    rewrite Hv, Hw, Nat.eqb_refl, Hpp. rewrite !g1_idx by lia. cbn [rbind].
    assert (En : idxZ (pp_G1s pp) (Z.of_nat N - 1) = Ret (g1 (α ^ N))).
    { unfold idxZ. destruct (Z.ltb_spec (Z.of_nat N - 1) 0); [lia|]. replace (Z.to_nat (Z.of_nat N - 1)) with (N - 1)%nat by lia.
      rewrite g1_idx by lia. do 3 f_equal. lia. }
    rewrite En. cbn [rbind]. rewrite !g1_last by lia. cbn [rbind].
    set (V' := gadd (gmul u _) (gmul ν _)). set (W' := gadd (gmul u _) (gmul η _)).
    destruct (HRO [eq_V e; eq_W e; V'; W'] [] (pe_Digest (eq_PP e)) 1%nat) as (xl & Hx & Lx).
    destruct xl as [|x [|]]; try (cbn in Lx; lia). rewrite Hx. cbn [rbind idx lookup list_lookup]. set (c := vI + u * x).
    destruct (HRO [eq_V e; eq_W e; gmul x V'; gmul x W'; gmul c (gen1 C)] [eq_I e; eq_J e] (pe_Digest (eq_PP e)) 2%nat) as (ts & Ht & Lt).
    destruct ts as [|t0 [|t1 rest]]; try (cbn in Lt; lia). rewrite Ht. cbn [rbind idx lookup list_lookup].
    unfold pp. rewrite !open_spec by lia. fold pp. cbn [rbind]. eexists. split; [reflexivity|].
    intros EV EW. match goal with |- Equality_Verify e ?Υ0 = _ => destruct (equality_verify_spec Υ0) as (x' & t0' & t1' & rest' & Hx' & Ht' & err & Herr & Hiff) end.
    rewrite Herr. f_equal. apply Hiff. clear Herr Hiff. cbn [ep_C ep_V ep_W ep_Ω] in *.
    rewrite Hx in Hx'. assert (x' = x) by congruence. subst x'. unfold g1 in Ht'. rewrite Ht in Ht'.
    assert (t0' = t0 /\ t1' = t1) as [-> ->] by (split; congruence). clear Hx' Ht'.
    rewrite EV, EW. unfold commitment, V', W', g1.
    assert (E : forall i a, (i < N)%nat -> 
      gadd (gmul x (gadd (gmul u (gmul (α ^ (i + 1)) (gen1 C))) (gmul a (gmul (α ^ N) (gen1 C))))) (gmul 0 (gen1 C)) =
      gmul (x * (u * α ^ (i + 1) + a * α ^ N)) (gen1 C)).
    { intros i a _. generalize (α ^ (i + 1)) (α ^ N). intros. module. }
    pose proof (blind_rel (eq_I e) x u ν HI) as B1. pose proof (blind_rel (eq_J e) x u η HJ) as B2.
    pose proof (entry_rel (eq_I e) v HI) as D1. pose proof (entry_rel (eq_J e) w HJ) as D2.
    rewrite EvI in D1. rewrite EwJ in D2. rewrite EvI, EwJ in Heq. subst wJ. clear E.
    revert B1 B2 D1 D2. unfold c.
    generalize (α ^ (N - eq_I e)) (α ^ (N - eq_J e)) (α ^ (eq_I e + 1)) (α ^ (eq_J e + 1)) (α ^ N) (α ^ (N + 1)) (α ^ (2 * N - eq_I e)) (α ^ (2 * N - eq_J e)).
    generalize (dot v (pows α 1 N)) (dot w (pows α 1 N)) (open_exp N α (eq_I e) v) (open_exp N α (eq_J e) w). clear.
    intros dv dw ov ow aI aJ bI bJ n n1 cI cJ B1 B2 D1 D2. module_pre.
    transitivity (t0 * (aI * (x * (u * bI + ν * n)) + aI * dv) + t1 * (aJ * (x * (u * bJ + η * n)) + aJ * dw)); [ring|].
    rewrite B1, B2, D1, D2. ring.
  Qed.
  End One.

  (** ** Many pairs *)
  Lemma mapM_items {A B} (f : nat -> res B) (h : A -> B) (l : list A) :
    (forall k t, l !! k = Some t -> f k = Ret (h t)) -> mapM f (seq 0 (length l)) = Ret (h <$> l).
  Proof.
    intros H. assert (G : forall n l', (forall k t, l' !! k = Some t -> f (n + k)%nat = Ret (h t)) -> mapM f (seq n (length l')) = Ret (h <$> l')).
    { intros n l'. revert n. induction l' as [|t l' IH]; intros n Hn; [done|]. cbn [length seq mapM].
      rewrite <- (Nat.add_0_r n) at 1. rewrite (Hn 0%nat t) by done. cbn [rbind]. rewrite IH; [done|].
      intros k t' Ht. replace (S n + k)%nat with (n + S k)%nat by lia. apply Hn. done. }
    apply (G 0%nat l). exact H.
  Qed.
  Lemma dot_fmap_ext {A} te (f g : A -> Zr) l : (forall t, t ∈ l -> f t = g t) -> dot te (f <$> l) = dot te (g <$> l).
  Proof. intros H. f_equal. apply list_fmap_ext. intros i t Ht. apply H. apply elem_of_list_lookup. eauto. Qed.
  Lemma dot_fmap_add {A} te (f g : A -> Zr) l : dot te ((fun t => f t + g t) <$> l) = dot te (f <$> l) + dot te (g <$> l).
  Proof.
    revert te. induction l as [|t l IH]; intros [|x te]; cbn [fmap list_fmap dot]; try ring.
    change (list_fmap ?X ?Y ?F l) with (F <$> l). rewrite IH. ring.
  Qed.
  Lemma dot_fmap_scale {A} te c (f : A -> Zr) l : dot te ((fun t => f t * c) <$> l) = dot te (f <$> l) * c.
  Proof.
    revert te. induction l as [|t l IH]; intros [|x te]; cbn [fmap list_fmap dot]; try ring.
    change (list_fmap ?X ?Y ?F l) with (F <$> l). rewrite IH. ring.
  Qed.
  Lemma gvadd_g1 {A} (f g : A -> Zr) x l :
    gvadd ((fun t => g1 (f t)) <$> l) (gvscale x ((fun t => g1 (g t)) <$> l)) = g1 <$> ((fun t => f t + x * g t) <$> l).
  Proof.
    induction l as [|t l IH]; [done|]. unfold gvadd, gvscale in *. cbn [fmap list_fmap zip_with]. f_equal; [|exact IH].
    unfold g1. module.
  Qed.
  Lemma pairsum_g1 {A} te (f e : A -> Zr) l :
    pairsum (gvmul te (g1 <$> (f <$> l))) ((fun t => gmul (e t) (gen2 C)) <$> l) = pair C (g1 (dot te ((fun t => e t * f t) <$> l))) (gen2 C).
  Proof.
    revert te. induction l as [|t l IH]; intros te.
    - rewrite dot_nil_r. unfold gvmul. cbn. rewrite zip_with_nil_r. unfold g1. cbn. rewrite gmul_0. symmetry. apply pair_0_l.
    - destruct te as [|x te]; [cbn; unfold g1; rewrite gmul_0; symmetry; apply pair_0_l|].
      unfold gvmul in *. cbn [fmap list_fmap zip_with pairsum dot]. change (list_fmap ?X ?Y ?F l) with (F <$> l).
      change (list_fmap ?X ?Y ?F (list_fmap ?X' ?Y' ?F' l)) with (F <$> (F' <$> l)). rewrite IH.
      unfold g1. rewrite pair_mul_r, <- pair_mul_l, <- pair_add_l. f_equal. module.
  Qed.

  Record eqItem : Type := MkItem { t_v : list Zr; t_i : nat; t_w : list Zr; t_j : nat; t_u : Zr; t_η : Zr; t_ν : Zr }.
  Definition t_vI t := nth (t_i t) (t_v t) 0.
  Definition t_wJ t := nth (t_j t) (t_w t) 0.
  Definition item_ok (t : eqItem) : Prop :=
    length (t_v t) = N /\ length (t_w t) = N /\ (t_i t + 1 < N)%nat /\ (t_j t + 1 < N)%nat.
  Definition t_iter (t : eqItem) : poeIter C :=
    MkIter (g1 (t_u t * α ^ (t_i t + 1) + t_ν t * α ^ N)) (g1 (t_ν t * α ^ (2 * N - t_i t)))
           (g1 (t_u t * α ^ (t_j t + 1) + t_η t * α ^ N)) (g1 (t_η t * α ^ (2 * N - t_j t)))
           (g1 (open_exp N α (t_i t) (t_v t))) (g1 (open_exp N α (t_j t) (t_w t))).
  Definition poe_ipa (pp : poePP C) : bpPP C :=
    let U := rand_gen "u" 0 in MkBpPP (sha256 C (setup_pre (pe_G pp) (pe_H pp) U)) (pe_G pp) (pe_H pp) U.

  Section Many.
  Context (e : Equalities C) (its : list eqItem) (k : nat).
  Context (HRO : oracle_ok (es_RO e)) (Hpp : pe_PP (es_PP e) = pp).
  Context (HG : length (pe_G (es_PP e)) = (2 ^ k)%nat) (HH : length (pe_H (es_PP e)) = (2 ^ k)%nat) (Hm : length its = (2 ^ k)%nat).
  Context (Hok : Forall item_ok its).
  Context (HV : es_V e = (fun t => commitment N α (t_v t)) <$> its) (HW : es_W e = (fun t => commitment N α (t_w t)) <$> its).
  Context (HI : es_I e = t_i <$> its) (HJ : es_J e = t_j <$> its).

  Lemma item_at j t : its !! j = Some t -> item_ok t.
  Proof. intros H. eapply Forall_lookup_1; [exact Hok|exact H]. Qed.

  (** The verifier's and the honest prover's runs; the prover does not compare v[I] and w[J]. *)
  Definition eqs_first : list (G1 C) :=
    (it_V <$> (t_iter <$> its)) ++ (it_W <$> (t_iter <$> its)) ++ es_V e ++ es_W e.
  Lemma equalities_honest r1 r2 : 
    exists p ts, Equalities_Prove e (t_v <$> its) (t_w <$> its) ((fun t => (t_u t, t_η t, t_ν t)) <$> its) r1 r2 = Ret p /\
      length (ipp_LRs (ap_IPP p)) = (2 * k)%nat /\
      es_RO e (ap_Vaggr p ++ ap_Waggr p ++ es_V e ++ es_W e ++ [ap_U p; ap_V p]) [] (pe_Digest (es_PP e)) (2 * 2 ^ k)%nat = Ret ts /\ length ts = (2 * 2 ^ k)%nat /\
      (Forall (fun x => x <> 0) (chal (inst_digest (poe_ipa (es_PP e))) (ipp_LRs (ap_IPP p))) ->
       exists err, Equalities_Verify e p = Ret err /\
         (err = nil_error <-> g1 (dot (odds_loop ts) ((fun t => t_wJ t - t_vI t) <$> its) * α ^ (N + 1)) = gzero)).
  Proof.
    assert (Lits : forall {A} (f : eqItem -> A), length (f <$> its) = (2 ^ k)%nat) by (intros; rewrite fmap_length; done).
    assert (Hk : (1 <= 2 ^ k)%nat) by (pose proof (Nat.pow_nonzero 2 k); lia).
    unfold Equalities_Prove. rewrite HV, HW, !Lits, !Nat.eqb_refl.
    destruct its as [|t0 its'] eqn:Eits; [cbn in Hm; lia|]. rewrite <- Eits in *.
    assert (H0 : its !! 0%nat = Some t0) by (rewrite Eits; done).
    assert (Hn : idx (t_v <$> its) 0 = Ret (t_v t0)) by (apply idx_ret; rewrite list_lookup_fmap, H0; done).
    rewrite Hn. cbn [rbind]. destruct (item_at 0 t0 H0) as (HN & _ & Hi0 & _). rewrite HN.
    rewrite <- Hm. rewrite (mapM_items _ t_iter).
    2:{ intros j t Ht. destruct (item_at j t Ht) as (Hv & Hw & Hi & Hj). unfold poe_iter. rewrite HI, HJ, Hpp.
        assert (Ec : idx ((fun t => (t_u t, t_η t, t_ν t)) <$> its) j = Ret (t_u t, t_η t, t_ν t)) by (apply idx_ret; rewrite list_lookup_fmap, Ht; done).
        assert (Ei : idx (t_i <$> its) j = Ret (t_i t)) by (apply idx_ret; rewrite list_lookup_fmap, Ht; done).
        assert (Ej : idx (t_j <$> its) j = Ret (t_j t)) by (apply idx_ret; rewrite list_lookup_fmap, Ht; done).
        assert (Ev : idx (t_v <$> its) j = Ret (t_v t)) by (apply idx_ret; rewrite list_lookup_fmap, Ht; done).
        assert (Ew : idx (t_w <$> its) j = Ret (t_w t)) by (apply idx_ret; rewrite list_lookup_fmap, Ht; done).
        rewrite Ec, Ei, Ej. cbn [rbind]. rewrite !g1_idx by lia. cbn [rbind].
        assert (En : idxZ (pp_G1s pp) (Z.of_nat N - 1) = Ret (g1 (α ^ N))).
        { unfold idxZ. destruct (Z.ltb_spec (Z.of_nat N - 1) 0); [lia|]. replace (Z.to_nat (Z.of_nat N - 1)) with (N - 1)%nat by lia.
          rewrite g1_idx by lia. do 3 f_equal. lia. }
        rewrite En. cbn [rbind]. rewrite !g1_last by lia. cbn [rbind]. rewrite Ev, Ew. cbn [rbind].
        unfold pp. rewrite !open_spec by lia. cbn [rbind]. unfold t_iter, g1. f_equal.
        f_equal; module. }
    cbn [rbind]. rewrite <- HV, <- HW. fold eqs_first.
    destruct (HRO eqs_first [] (pe_Digest (es_PP e)) 1%nat) as (xl & Hx & Lx).
    destruct xl as [|x [|]]; try (cbn in Lx; lia). rewrite Hx. cbn [rbind idx lookup list_lookup].
    rewrite (mapM_items _ t_vI).
    2:{ intros j t Ht. destruct (item_at j t Ht) as (Hv & Hw & Hi & Hj). rewrite HI.
        assert (Ei : idx (t_i <$> its) j = Ret (t_i t)) by (apply idx_ret; rewrite list_lookup_fmap, Ht; done).
        assert (Ev : idx (t_v <$> its) j = Ret (t_v t)) by (apply idx_ret; rewrite list_lookup_fmap, Ht; done).
        rewrite Ev, Ei. cbn [rbind]. apply idx_ret. unfold t_vI. rewrite nth_lookup.
        destruct (lookup_lt_is_Some_2 (t_v t) (t_i t) ltac:(lia)) as [y Hy]. rewrite Hy. done. }
    cbn [rbind]. rewrite take_ge by (rewrite fmap_length; done). rewrite <- list_fmap_compose. unfold compose. cbn [fst snd].
    rewrite !mulv_sum by (first [rewrite HG, Lits; done|apply nonempty_len; lia]). cbn [rbind].
    set (U := gadd (gmul r1 _) (msm (_ <$> its) _)). set (V := gadd (gmul r2 _) (msm (_ <$> its) _)).
    destruct (HRO (eqs_first ++ [U; V]) [] (pe_Digest (es_PP e)) (2 * length its)%nat) as (ts & Ht & Lts).
    rewrite Ht. cbn [rbind]. assert (Hev : Nat.even (length ts) = true) by (rewrite Lts; apply Nat.even_spec; exists (length its); lia).
    destruct (evens_odds_length ts (length its) Lts) as [Le Lo].
    unfold Vec_Evens, Vec_Odds. rewrite Hev. cbn [rbind]. set (te := evens_loop ts) in *. set (to := odds_loop ts) in *.
    rewrite !g1v_mul_spec, <- !list_fmap_compose.
    rewrite !g1v_add_spec by (rewrite gvscale_length, !fmap_length; lia). cbn [rbind].
    unfold compose, t_iter. cbn [it_V it_W it_Ωv it_Ωw it_ΩvPP it_ΩwPP].
    rewrite !gvadd_g1.
    rewrite !mulv_sum by (first [rewrite !fmap_length; lia|apply nonempty_len; rewrite !fmap_length; lia]). cbn [rbind].
    rewrite vec_mul_spec, !vec_add_spec by (rewrite ?vscale_length, !fmap_length; lia). cbn [rbind].
    rewrite vec_add_spec by lia. cbn [rbind].
    set (us := t_u <$> its) in *. set (vI := t_vI <$> its) in *.
    set (a := vadd (vscale x us) vI). set (b := vadd te to).
    assert (La : length a = (2 ^ k)%nat) by (unfold a, us, vI; rewrite vadd_length; rewrite vscale_length, !fmap_length; lia).
    assert (Lb : length b = (2 ^ k)%nat) by (unfold b; rewrite vadd_length; lia).
    rewrite !mulv_sum by (first [lia|apply nonempty_len; lia]). cbn [rbind].
    set (ρ := poe_negZr (r1 * x + r2)). set (P := gadd (gadd (gadd (gmul ρ _) _) _) _).
    unfold poe_bpPP. cbn [RandGenVec seq fmap list_fmap idx rbind lookup list_lookup].
    unfold RecomputeDigest. rewrite setup_digest_spec by (right; cbn [bp_G bp_H]; lia). cbn [rbind bp_G bp_H bp_U].
    fold (poe_ipa (es_PP e)). set (B := poe_ipa (es_PP e)).
    rewrite new_ipa_spec; [|lia|apply nonempty_len; lia|unfold B; cbn [poe_ipa bp_G]; lia|unfold B; cbn [poe_ipa bp_H]; lia].
    cbn [rbind ipa_pp ipa_a ipa_b ipa_C].
    destruct (ipa_honest_body_iff k B a b (dot a b) P (dot a b) P) as (LRs & al & be & Hp & HL & Hver); [done..|].
    rewrite Hp. cbn [rbind]. set (Ω := gadd (msm te _) (msm to _)).
    eexists _, ts. split; [reflexivity|]. cbn [ap_IPP ap_U ap_V ap_Vaggr ap_Waggr ipp_LRs ipp_C].
    split; [done|]. 
    assert (Hgs : forall l : list (G1 C), ((fun t : eqItem => g1 (t_u t * α ^ (t_i t + 1) + t_ν t * α ^ N)) <$> its) ++
      ((fun t : eqItem => g1 (t_u t * α ^ (t_j t + 1) + t_η t * α ^ N)) <$> its) ++ es_V e ++ es_W e ++ l = eqs_first ++ l).
    { intros l. unfold eqs_first. rewrite <- !list_fmap_compose. unfold compose, t_iter. cbn [it_V it_W]. rewrite <- !app_assoc. done. }
    rewrite Hgs. split; [exact Ht|]. split; [done|].
    intros Hnz. destruct (Hver Hnz) as (e0 & He0 & Hiff0). clear Hver Hp.
    assert (e0 = nil_error) as ->.
    { apply Hiff0. unfold ipa_com. unfold P, B, poe_ipa. cbn [bp_G bp_H bp_U]. fold (poe_ipa (es_PP e)). fold B.
      unfold U, V, a. rewrite msm_vadd, msm_vscale by (unfold us, vI; rewrite vscale_length, !fmap_length; done).
      fold a. fold us vI. generalize (msm us (pe_G (es_PP e))) (msm vI (pe_G (es_PP e))) (msm b (pe_H (es_PP e))) (inst_x B) (dot a b) (rand_gen (C:=C) "u" 0).
      unfold ρ, poe_negZr. change (IntToZr 0) with 0. generalize (pe_F (es_PP e)). clear. intros. module. }
    unfold Equalities_Verify. cbn [ap_IPP ap_U ap_V ap_Vaggr ap_Waggr ap_Ω ap_c ap_ρ ipp_LRs ipp_C ipp_a ipp_b].
    pose proof (Hgs []) as Hgs0. rewrite !app_nil_r in Hgs0. rewrite Hgs0, Hx. cbn [rbind idx lookup list_lookup].
    assert (LV : length (es_V e) = length its) by (rewrite HV, fmap_length; done). rewrite LV.
    rewrite Ht. cbn [rbind]. unfold poe_g2s.
    rewrite (mapM_items _ (fun t => gmul (α ^ (N - t_i t)) (gen2 C)) its).
    2:{ intros j t Htj. destruct (item_at j t Htj) as (Hv & Hw & Hi & Hj). rewrite HI.
        assert (Ei : idx (t_i <$> its) j = Ret (t_i t)) by (apply idx_ret; rewrite list_lookup_fmap, Htj; done).
        rewrite Ei. cbn [rbind]. rewrite Hpp. unfold pp. rewrite <- (g2_at_spec (C:=C) N α (t_i t)) by lia. unfold g2_at. f_equal. lia. }
    rewrite (mapM_items _ (fun t => gmul (α ^ (N - t_j t)) (gen2 C)) its).
    2:{ intros j t Htj. destruct (item_at j t Htj) as (Hv & Hw & Hi & Hj). rewrite HJ.
        assert (Ei : idx (t_j <$> its) j = Ret (t_j t)) by (apply idx_ret; rewrite list_lookup_fmap, Htj; done).
        rewrite Ei. cbn [rbind]. rewrite Hpp. unfold pp. rewrite <- (g2_at_spec (C:=C) N α (t_j t)) by lia. unfold g2_at. f_equal. lia. }
    cbn [rbind]. unfold Vec_Evens, Vec_Odds. rewrite Hev. cbn [rbind]. fold te to.
    rewrite !g1v_mul_spec, !g1v_add_spec by (rewrite ?HV, ?HW, gvscale_length, !fmap_length; lia). cbn [rbind].
    rewrite HV, HW. fold (g1). change (commitment N α) with (fun v => g1 (dot v (pows α 1 N))). cbn beta.
    rewrite !gvadd_g1.
    rewrite !g1v_mulv_spec by (rewrite !fmap_length; lia). cbn [rbind].
    rewrite !g1v_innerprod_spec by (first [rewrite gvmul_length; rewrite !fmap_length; lia|apply nonempty_len; rewrite gvmul_length; rewrite !fmap_length; lia]).
    cbn [rbind]. rewrite !pairsum_g1. rewrite g1v_innerprod_1. cbn [rbind].
    rewrite Hpp, g1_idx by lia. cbn [rbind]. rewrite g2_last by lia. cbn [rbind]. rewrite g1v_innerprod_1. cbn [rbind].
    rewrite Nat.sub_0_r. rewrite (pair_mul_l C (dot a b)). rewrite <- (pair_add_l C (g1 _) (g1 _)).
    change (0 + 1)%nat with 1%nat.
    set (AV := dot te ((fun t => α ^ (N - t_i t) * _) <$> its)). set (AW := dot to ((fun t => α ^ (N - t_j t) * _) <$> its)).
    rewrite vec_add_spec by lia. cbn [rbind]. fold b. rewrite mulv_sum by (first [lia|apply nonempty_len; lia]). cbn [rbind].
    unfold poe_bpPP. cbn [RandGenVec seq fmap list_fmap idx rbind lookup list_lookup].
    unfold RecomputeDigest. rewrite setup_digest_spec by (right; cbn [bp_G bp_H]; lia). cbn [rbind bp_G bp_H bp_U].
    fold (poe_ipa (es_PP e)). fold B. fold P. rewrite He0.
    pose proof (pairing_eq (gadd (g1 AV) (g1 AW)) Ω (dot a b) ltac:(lia)) as Hpair.
    assert (Hfin : gadd (g1 AV) (g1 AW) = gadd Ω (g1 (dot a b * α ^ (N + 1))) <->
      g1 (dot to ((fun t => t_wJ t - t_vI t) <$> its) * α ^ (N + 1)) = gzero).
    { assert (EV : AV = dot te ((fun t => open_exp N α (t_i t) (t_v t) + x * (t_ν t * α ^ (2 * N - t_i t))) <$> its)
        + dot te ((fun t => x * t_u t + t_vI t) <$> its) * α ^ (N + 1)).
      { unfold AV. rewrite <- dot_fmap_scale, <- dot_fmap_add. apply dot_fmap_ext. intros t Hin.
        apply elem_of_list_lookup in Hin. destruct Hin as [j Hj]. destruct (item_at j t Hj) as (_ & _ & Hi & _).
        pose proof (blind_rel (t_i t) x (t_u t) (t_ν t) ltac:(lia)) as B1. pose proof (entry_rel (t_i t) (t_v t) ltac:(lia)) as D1.
        transitivity (α ^ (N - t_i t) * dot (t_v t) (pows α 1 N) + α ^ (N - t_i t) * (x * (t_u t * α ^ (t_i t + 1) + t_ν t * α ^ N))); [ring|].
        rewrite B1, D1. unfold t_vI. ring. }
      assert (EW : AW = dot to ((fun t => open_exp N α (t_j t) (t_w t) + x * (t_η t * α ^ (2 * N - t_j t))) <$> its)
        + dot to ((fun t => x * t_u t + t_wJ t) <$> its) * α ^ (N + 1)).
      { unfold AW. rewrite <- dot_fmap_scale, <- dot_fmap_add. apply dot_fmap_ext. intros t Hin.
        apply elem_of_list_lookup in Hin. destruct Hin as [j Hj]. destruct (item_at j t Hj) as (_ & _ & _ & Hi).
        pose proof (blind_rel (t_j t) x (t_u t) (t_η t) ltac:(lia)) as B1. pose proof (entry_rel (t_j t) (t_w t) ltac:(lia)) as D1.
        transitivity (α ^ (N - t_j t) * dot (t_w t) (pows α 1 N) + α ^ (N - t_j t) * (x * (t_u t * α ^ (t_j t + 1) + t_η t * α ^ N))); [ring|].
        rewrite B1, D1. unfold t_wJ. ring. }
      assert (Ea : a = (fun t => x * t_u t + t_vI t) <$> its).
      { unfold a, us, vI, vscale, vadd. clear. induction its as [|t l IH]; [done|]. cbn [fmap list_fmap zip_with]. f_equal. exact IH. }
      assert (Eab : dot a b = dot te ((fun t => x * t_u t + t_vI t) <$> its) + dot to ((fun t => x * t_u t + t_vI t) <$> its)).
      { unfold b. rewrite dot_vadd_r by lia. rewrite Ea, !(dot_comm ((fun t => x * t_u t + t_vI t) <$> its)). done. }
      assert (Ed : dot to ((fun t => t_wJ t - t_vI t) <$> its) =
        dot to ((fun t => x * t_u t + t_wJ t) <$> its) - dot to ((fun t => x * t_u t + t_vI t) <$> its)).
      { assert (H : dot to ((fun t => t_wJ t - t_vI t) <$> its) + dot to ((fun t => x * t_u t + t_vI t) <$> its) = dot to ((fun t => x * t_u t + t_wJ t) <$> its)).
        { rewrite <- dot_fmap_add. apply dot_fmap_ext. intros t _. ring. }
        rewrite <- H. ring. }
      rewrite Eab, Ed, EV, EW. unfold Ω. unfold g1. 
      change (fun x0 : Zr => gmul x0 (gen1 C)) with (g1). rewrite !(msm_common_base _ _ (gen1 C)).
      match goal with |- gadd (gmul (?p1 + ?q1 * ?al) _) (gmul (?p2 + ?q2 * _) _) = gadd _ (gmul ((_ + ?q3) * _) _) <-> _ =>
        generalize p1 q1 p2 q2 q3 al end. clear. intros p1 q1 p2 q2 q3 al.
      assert (E : gadd (gmul (p1 + q1 * al) (gen1 C)) (gmul (p2 + q2 * al) (gen1 C)) =
        gadd (gadd (gadd (gmul p1 (gen1 C)) (gmul p2 (gen1 C))) (gmul ((q1 + q3) * al) (gen1 C))) (gmul ((q2 - q3) * al) (gen1 C))) by module.
      rewrite E. generalize (gmul ((q2 - q3) * al) (gen1 C)). intros D.
      generalize (gadd (gadd (gmul p1 (gen1 C)) (gmul p2 (gen1 C))) (gmul ((q1 + q3) * al) (gen1 C))). intros A. split; intros H.
      - apply (gadd_cancel_l A). rewrite H, gadd_0_r. done.
      - rewrite H, gadd_0_r. done. }
    destruct (geqb _ _) eqn:Eq.
    - exists nil_error. split; [done|]. split; [intros _|done]. apply Hfin, Hpair. done.
    - eexists. split; [done|]. split; [done|]. intros H. apply Hfin, Hpair in H. congruence.
  Qed.
  End Many.
End Poe.
