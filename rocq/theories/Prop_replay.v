(** Property C94: whether one liability proof can convince two clients.

    Giving two clients the same proof is how an institution would hide a liability: both are shown the same balance, and it is counted
    once. None of the challenges of the verifier depends on the client's path, so this is settled by three equations between the elements
    of the proof. *)
From Verif Require Import Prop_transcript Prop_overlap Extract Sum_facts Poe_facts Pp_facts Prop_range Prop_sum Prop_poe Prop_poesound Prop_accept Pol_params Prop_total Prop_update Prop_treehiding Prop_verkle Toy Prop_set Pol_run Pol_chain Bottom_drift Verkle_blind Prop_liability.
Local Open Scope Zr_scope.

(** ** Specification *)
(** How far the digits of two paths are apart in the exponent, place by place *)
Definition digit_gaps (N : nat) (α : Zr) (p q : path) : list Zr := zip_with (fun i j => α ^ (N - i) - α ^ (N - j)) p q.
Section Challenges.
  Context {C : Curve} (pp : PolPP C) (lp : LiabilityProof C) (n : nat).
  (** pp/pointproofs.go:148-180: the challenges the openings of the digests are weighed by *)
  Definition digest_weights : list Zr := (fun k => fe (sha256 C (ro_input (pp_Digest (po_PPPP pp)) (lp_W lp) k))) <$> seq 0 (n - 1).
  (** pol/pol.go:144-216, poe/poe.go:72-76: the points the challenges of the equality argument are hashed from *)
  Definition equality_points : list (G1 C) :=
    let padding := replicate (length (pe_G (po_POEPP pp)) - (n - 1)) gzero in
    ap_Vaggr (lp_Eq lp) ++ ap_Waggr (lp_Eq lp) ++ (take (n - 1) (lp_V lp) ++ padding) ++ (take (n - 1) (drop 1 (lp_V lp)) ++ padding).
  (** The i-th scalar for the listed points, poe/poe.go:257-299 *)
  Definition equality_scalar (gs : list (G1 C)) (i : nat) : Zr :=
    fe (hmac C (sha256 C (poe_input gs [] (pe_Digest (po_POEPP pp)))) (be_bytes 2 (Z.of_nat i))).
  (** poe/poe.go:78: the first challenge *)
  Definition equality_x : Zr := equality_scalar equality_points 0.
  (** poe/poe.go:81-98: the even challenges belong to the parents *)
  Definition equality_weights : list Zr :=
    (fun k => equality_scalar (equality_points ++ [ap_U (lp_Eq lp); ap_V (lp_Eq lp)]) (2 * k)) <$> seq 0 (n - 1).
  (** The parents' commitments, blinded: V + x·V' *)
  Definition blinded_parents : list (G1 C) := gvadd (take (n - 1) (lp_V lp)) (gvscale equality_x (ap_Vaggr (lp_Eq lp))).
  (** The three equations between the two paths. *)
  Definition transferable (N : nat) (α : Zr) (p q : path) : Prop :=
    (* the opening of the last commitment at the last digit *)
    (forall Vn i j, last (lp_V lp) = Some Vn -> last p = Some i -> last q = Some j -> gmul (α ^ (N - i) - α ^ (N - j)) Vn = gzero) /\
    (* the openings of the digests at the other digits *)
    msm (vmul digest_weights (digit_gaps N α (take (n - 1) p) (take (n - 1) q))) (lp_W lp) = gzero /\
    (* the equalities between the parents at the other digits and the sums of the children *)
    msm (vmul equality_weights (digit_gaps N α (take (n - 1) p) (take (n - 1) q))) blinded_parents = gzero.
End Challenges.

(** ** Lemmas *)
Lemma evens_seq (h : nat -> Zr) m : forall s, evens_loop (h <$> seq s (2 * m)) = (fun k => h (s + 2 * k)%nat) <$> seq 0 m.
Proof.
  induction m as [|m IH]; intros s; [done|]. replace (2 * S m)%nat with (S (S (2 * m))) by lia. cbn [seq fmap list_fmap evens_loop].
  change (list_fmap nat Zr h (seq (S (S s)) (2 * m))) with (h <$> seq (S (S s)) (2 * m)). rewrite IH. f_equal; [f_equal; lia|].
  rewrite <- fmap_S_seq. rewrite <- list_fmap_compose. apply list_fmap_ext. intros i x _. cbn. f_equal. lia.
Qed.
Lemma shifted_msm {C : Curve} N α te I (A : list (G1 C)) : msm te (shifted N α I A) = msm (vmul te ((fun i => α ^ (N - i)) <$> I)) A.
Proof.
  revert te A. induction I as [|i I IH]; intros [|t te] [|P A]; try done. unfold shifted, vmul in *. cbn [zip_with fmap list_fmap msm].
  change (list_fmap nat Zr ?f I) with (f <$> I). rewrite IH, gmul_mul. done.
Qed.
Lemma gaps_msm {M : Grp} N α I I' R : forall te (A : list M), length I = length I' ->
  msm (vmul te ((fun i => α ^ (N - i)) <$> (I ++ R))) A = gadd (msm (vmul te (digit_gaps N α I I')) A) (msm (vmul te ((fun i => α ^ (N - i)) <$> (I' ++ R))) A).
Proof.
  revert I'. induction I as [|i I IH]; intros [|i' I'] te A Hl; cbn in Hl; try lia.
  - cbn [app]. replace (msm (vmul te (digit_gaps N α [] [])) A) with (@gzero M); [symmetry; apply gadd_0_l|]. destruct te, A; done.
  - destruct te as [|t te]; [cbn; symmetry; apply gadd_0_l|]. destruct A as [|P A]; [cbn; symmetry; apply gadd_0_l|].
    unfold vmul, digit_gaps in *. cbn [app fmap list_fmap zip_with msm]. change (list_fmap nat Zr ?f ?l) with (f <$> l). rewrite (IH I') by lia. module.
Qed.
Lemma vmul_cut (h : nat -> Zr) g : forall m s, (length g <= m)%nat -> vmul (h <$> seq s m) g = vmul (h <$> seq s (length g)) g.
Proof.
  induction g as [|x g IH]; intros m s Hm; [unfold vmul; rewrite !zip_with_nil_r; done|]. destruct m as [|m]; cbn in Hm; [lia|].
  cbn [length seq fmap list_fmap]. unfold vmul in *. cbn [zip_with]. f_equal. apply IH. lia.
Qed.
Lemma msm_padded {M : Grp} (l l' : list M) : forall a (X : list M), (length a <= length l)%nat -> msm a (gvadd (l ++ l') X) = msm a (gvadd l X).
Proof.
  induction l as [|P l IH]; intros [|x a] X Ha; cbn in Ha; try lia; [done..|]. destruct X as [|Q X]; [done|].
  unfold gvadd in *. cbn [app zip_with msm]. rewrite IH by lia. done.
Qed.
(** Everything but the indices I fixed *)
Lemma equalities_by_index {C : Curve} N j α (pp : poePP C) (V W : list (G1 C)) J p :
  poe_params N (2 ^ j) α pp -> (1 <= N)%nat -> Forall (fun l => length l = (2 ^ j)%nat) [V; W] -> length J = (2 ^ j)%nat -> Forall (fun i => i < N)%nat J ->
  (2 ^ j <= length (ap_Vaggr p))%nat -> (2 ^ j <= length (ap_Waggr p))%nat ->
  let scalar gs i := fe (hmac C (sha256 C (poe_input gs [] (pe_Digest pp))) (be_bytes 2 (Z.of_nat i))) in
  let gs := ap_Vaggr p ++ ap_Waggr p ++ V ++ W in
  exists (Y : G1 C) (Rest : Prop), forall I, length I = (2 ^ j)%nat -> Forall (fun i => i < N)%nat I ->
    Equalities_Verify (MkEqs poe_RO pp V W I J) p = Ret nil_error <->
    msm (vmul ((fun k => scalar (gs ++ [ap_U p; ap_V p]) (2 * k)%nat) <$> seq 0 (2 ^ j)) ((fun i => α ^ (N - i)) <$> I)) (gvadd V (gvscale (scalar gs 0%nat) (ap_Vaggr p))) = Y /\ Rest.
Proof.
  intros (Hpp & HG & HH) HN Hl LJ HJ LV' LW' scalar gs.
  rewrite !Forall_cons in Hl. destruct Hl as (LV & LW & _).
  assert (Hk : (1 <= 2 ^ j)%nat) by (pose proof (Nat.pow_nonzero 2 j); lia).
  set (x := scalar gs 0%nat). set (ts := (fun i => scalar (gs ++ [ap_U p; ap_V p]) i) <$> seq 0 (2 * 2 ^ j)).
  assert (Lts : length ts = (2 * 2 ^ j)%nat) by (unfold ts; rewrite fmap_length, seq_length; done).
  assert (Ete : evens_loop ts = (fun k => scalar (gs ++ [ap_U p; ap_V p]) (2 * k)%nat) <$> seq 0 (2 ^ j)) by (unfold ts; rewrite evens_seq; done).
  rewrite <- Ete. clear Ete.
  destruct (evens_odds_length ts _ Lts) as [Le Lo].
  set (P := agg_point (pe_F pp) (pe_H pp) (ap_U p) (ap_V p) x (ap_ρ p) (vadd (evens_loop ts) (odds_loop ts))).
  exists (gadd (gadd (ap_Ω p) (gmul (ap_c p) (withheld C N α))) (gopp (msm (odds_loop ts) (shifted N α J (gvadd W (gvscale x (ap_Waggr p))))))).
  exists (IPP_Verify (MkIPP (ipp_LRs (ap_IPP p)) (ipp_a (ap_IPP p)) (ipp_b (ap_IPP p)) P (ap_c p)) (poe_ipa pp) = Ret nil_error).
  intros I LI HI.
  assert (Hx : poe_RO gs [] (pe_Digest pp) 1%nat = Ret [x]) by (rewrite (proj1 (C67_equality C)); done).
  assert (Ht : poe_RO (gs ++ [ap_U p; ap_V p]) [] (pe_Digest pp) (2 * 2 ^ j)%nat = Ret ts) by (rewrite (proj1 (C67_equality C)); done).
  clearbody x ts. 
  unfold Equalities_Verify. cbn [es_RO es_PP es_V es_W es_I es_J]. fold gs. rewrite Hx. cbn [rbind idx lookup list_lookup]. rewrite LV, Ht. cbn [rbind].
  rewrite Hpp, !poe_g2s_spec by done. cbn [rbind].
  assert (Hev : Nat.even (length ts) = true) by (rewrite Lts; apply Nat.even_spec; exists (2 ^ j)%nat; lia).
  unfold Vec_Evens, Vec_Odds. rewrite Hev. cbn [rbind]. rewrite !g1v_mul_spec.
  assert (EA : forall A B : list (G1 C), length A = (2 ^ j)%nat -> (2 ^ j <= length B)%nat -> G1v_Add A (gvscale x B) = Ret (gvadd A (gvscale x B))).
  { intros A B HA HB. unfold G1v_Add. rewrite gvscale_length. destruct (Nat.leb_spec (length A) (length B)); [done|lia]. }
  assert (La : forall A B : list (G1 C), length A = (2 ^ j)%nat -> (2 ^ j <= length B)%nat -> length (gvadd A (gvscale x B)) = (2 ^ j)%nat).
  { intros A B HA HB. unfold gvadd. rewrite zip_with_length, gvscale_length. lia. }
  rewrite !EA by done. pose proof (La V (ap_Vaggr p) LV LV') as L1. pose proof (La W (ap_Waggr p) LW LW') as L2. clear EA La.
  revert L1 L2. generalize (gvadd V (gvscale x (ap_Vaggr p))) (gvadd W (gvscale x (ap_Waggr p))). intros A B L1 L2. cbn [rbind].
  rewrite !g1v_mulv_spec by lia. cbn [rbind].
  rewrite !g1v_innerprod_spec by (first [apply nonempty_len|idtac]; rewrite gvmul_length, ?fmap_length; lia).
  cbn [rbind]. rewrite !pairsum_shifted by lia.
  rewrite g1v_innerprod_1. cbn [rbind]. rewrite g1_idx by lia. cbn [rbind]. rewrite g2_last by lia. cbn [rbind]. rewrite g1v_innerprod_1. cbn [rbind].
  rewrite Nat.sub_0_r, pair_mul_l, <- pair_add_l. change (0 + 1)%nat with 1%nat.
  pose proof (pairing_eq N α (gadd (msm (evens_loop ts) (shifted N α I A)) (msm (odds_loop ts) (shifted N α J B))) (ap_Ω p) (ap_c p) HN) as Hp.
  rewrite <- shifted_msm.
  assert (Hag : msm (evens_loop ts) (shifted N α I A) = gadd (gadd (ap_Ω p) (gmul (ap_c p) (withheld C N α))) (gopp (msm (odds_loop ts) (shifted N α J B))) <->
    gadd (msm (evens_loop ts) (shifted N α I A)) (msm (odds_loop ts) (shifted N α J B)) = gadd (ap_Ω p) (g1 (ap_c p * α ^ (N + 1)))).
  { unfold withheld, g1. rewrite gmul_mul. generalize (msm (evens_loop ts) (shifted N α I A)) (msm (odds_loop ts) (shifted N α J B)) (gmul (ap_c p) (gmul (α ^ (N + 1)) (gen1 C))).
    intros a b d. split; [intros ->; module|]. intros E. transitivity (gadd (gadd a b) (gopp b)); [module|]. rewrite E. module. }
  rewrite Hag, <- Hp. clear Hag Hp. destruct (geqb _ _); [|split; [done|intros [E _]; done]].
  rewrite vec_add_spec by lia. cbn [rbind]. rewrite mulv_sum by (first [rewrite vadd_length; lia|apply nonempty_len; lia]). cbn [rbind].
  unfold poe_bpPP. cbn [RandGenVec seq fmap list_fmap idx rbind lookup list_lookup].
  unfold RecomputeDigest. rewrite setup_digest_spec by (right; cbn [bp_G bp_H]; lia). cbn [rbind bp_G bp_H bp_U]. fold (poe_ipa pp).
  split; [intros H; split; [done|exact H]|intros [_ H]; exact H].
Qed.
Lemma aggregation_iff {C : Curve} N α ixs (cs : list (G1 C)) π S : let pp := NewPublicParams (C:=C) N α in
  Forall (fun i => i < N)%nat ixs -> length ixs = length cs -> cs <> [] ->
  VerifyAggregation pp ixs cs π S RO = Ret nil_error <->
  msm (vmul ((fun k => fe (sha256 C (ro_input (pp_Digest pp) cs k))) <$> seq 0 (length ixs)) ((fun i => α ^ (N - i)) <$> ixs)) cs = gadd π (gmul (S * α ^ (N + 1)) (gen1 C)).
Proof.
  intros pp Hi Hl Hne. pose proof (verify_aggregation_iff N α ixs cs π S (fun pp cs k => fe (sha256 C (ro_input (pp_Digest pp) cs k))) Hi Hl Hne) as H. cbv beta in H. fold pp in H.
  rewrite <- H. clear H. unfold VerifyAggregation. rewrite (mapM_ret (fun i => RO pp cs i) (fun k => fe (sha256 C (ro_input (pp_Digest pp) cs k)))) by (intros; apply (proj1 (C67_pointproofs C))).
  rewrite (mapM_ret (fun i => Ret (fe (sha256 C (ro_input (pp_Digest pp) cs i)))) (fun k => fe (sha256 C (ro_input (pp_Digest pp) cs k)))) by done. done.
Qed.
Lemma gadd_gap {M : Grp} (a b y : M) : gadd a b = y -> (b = y <-> a = gzero).
Proof.
  intros <-. split.
  - intros E. transitivity (gadd (gadd a b) (gopp b)); [module|]. rewrite <- E. module.
  - intros ->. module.
Qed.
Lemma gadd_gap' {M : Grp} (a b c y : M) : a = y -> a = gadd c b -> (b = y <-> c = gzero).
Proof. intros E1 E2. apply gadd_gap. congruence. Qed.

Lemma accepted_transfers {C : Curve} F α n k (pp : PolPP C) (lp : LiabilityProof C) V W p q :
  params_ok F α n k pp -> length p = n -> length q = n -> Forall (fun i => i < F)%nat p -> Forall (fun i => i < F)%nat q ->
  accepted pp p V W lp -> (accepted pp q V W lp <-> transferable pp lp n (F + 2) α p q).
Proof.
  intros Hpp Lp Lq Hp Hq [A1 A2 A3 A4 A5 A6 A7 A8 A9 (zc & m & Z1 & Z2 & Z3) (Vn & i & L1 & L2 & L3)].
  pose proof Hpp as (HF & Hk & HFan & HPP & _ & _ & _ & _ & _ & _ & j & Hj & Hpoe & Hnj & Hpad).
  assert (Hj' : length (pe_G (po_POEPP pp)) = (2 ^ j)%nat) by apply Hpoe.
  rewrite Lp in A1, A2, A5, A6, A7, A8, Z2. assert (m = (2 ^ j)%nat) as -> by congruence.
  assert (Hn : (2 <= n)%nat) by (apply lookup_lt_Some in A4; lia).
  assert (HVn : (n <= length (lp_V lp))%nat). { destruct (A5 (n - 1)%nat ltac:(lia)) as (_ & Vi & _ & H & _). apply lookup_lt_Some in H. lia. }
  assert (zc = gzero) as ->. { clear -Z1 HPP HFan. rewrite HPP, HFan, commit_spec in Z1 by (rewrite ?zeros_length; lia). assert (zc = commitment (F + 2) α (zeros (F + 2))) as -> by congruence. unfold commitment. rewrite dot_zeros_l. apply gmul_0. }
  assert (B : forall r : path, Forall (fun i => i < F)%nat r -> Forall (fun i => i < F + 2)%nat r) by (intros r Hr; eapply Forall_impl; [exact Hr|]; cbn beta; lia).
  assert (Lk : forall r : path, length r = n -> length (take (n - 1) r) = (n - 1)%nat) by (intros; rewrite take_length; lia).
  (* last digit *)
  assert (exists i', last q = Some i') as [i' Hi'] by (destruct (last q) eqn:E; [eauto|]; apply last_None in E; subst q; cbn in Lq; lia).
  assert (Li : (i < F + 2)%nat) by (apply last_Some_elem_of in L2; rewrite Forall_forall in Hp; specialize (Hp _ L2); lia).
  assert (Li' : (i' < F + 2)%nat) by (apply last_Some_elem_of in Hi'; rewrite Forall_forall in Hq; specialize (Hq _ Hi'); lia).
  assert (T1 : Verify (po_PPPP pp) (zr (tp_Sum (lp_Liability lp))) (tp_proof (lp_Liability lp)) Vn i' = Ret nil_error <-> gmul (α ^ (F + 2 - i) - α ^ (F + 2 - i')) Vn = gzero).
  { rewrite HPP in *. apply verify_iff in L3; [|done]. rewrite verify_iff by done. apply (gadd_gap' _ _ _ _ L3). module. }
  (* the digests *)
  assert (HW0 : lp_W lp <> []) by (intros E; rewrite E in A4; done).
  assert (T2 : VerifyAggregation (po_PPPP pp) (take (n - 1) q) (lp_W lp) (lp_π lp) (lp_Σ lp) RO = Ret nil_error <->
    msm (vmul (digest_weights pp lp n) (digit_gaps (F + 2) α (take (n - 1) p) (take (n - 1) q))) (lp_W lp) = gzero).
  { unfold digest_weights. rewrite HPP in *. apply aggregation_iff in A8; [|apply Forall_take, B, Hp|rewrite Lk by done; lia|done].
    rewrite aggregation_iff; [|apply Forall_take, B, Hq|rewrite Lk by done; lia|done]. rewrite Lk in * by done.
    apply (gadd_gap' _ _ _ _ A8). pose proof (gaps_msm (F + 2) α (take (n - 1) p) (take (n - 1) q) [] ((fun k => fe (sha256 C (ro_input (pp_Digest (NewPublicParams (C:=C) (F + 2) α)) (lp_W lp) k))) <$> seq 0 (n - 1)) (lp_W lp) ltac:(rewrite !Lk; done)) as G.
    rewrite !app_nil_r in G. exact G. }
  (* the equalities *)
  destruct (path_equalities_fit F α n k j pp p (lp_V lp) gzero Hpp Hj' Lp Hn Hp HVn) as (_ & _ & VV & WW & I & J & EE & Hl & HIJ).
  rewrite EE in Z3. destruct (eq_accepted_inner (F + 2) j α (po_POEPP pp) VV WW I J _ Hpoe Hl HIJ Z3) as (S1 & S2 & _).
  rewrite !Forall_cons in HIJ. destruct HIJ as ((LI & HI) & (LJ & HJ) & _).
  destruct (equalities_by_index (F + 2) j α (po_POEPP pp) VV WW J (lp_Eq lp) Hpoe ltac:(lia) Hl LJ HJ S1 S2) as (Y & Rest & Hby).
  pose proof EE as EE'. unfold path_equalities in EE'. rewrite Lp in EE'. injection EE' as <- <- <- <-. cbv zeta in Hby.
  assert (EEq : path_equalities pp gzero (2 ^ j) q (lp_V lp) = MkEqs poe_RO (po_POEPP pp) (take (n - 1) (lp_V lp) ++ replicate (2 ^ j - (n - 1)) gzero) (take (n - 1) (drop 1 (lp_V lp)) ++ replicate (2 ^ j - (n - 1)) gzero)
    (take (n - 1) q ++ replicate (2 ^ j - (n - 1)) 0%nat) (replicate (n - 1) (po_Fanout pp) ++ replicate (2 ^ j - (n - 1)) 0%nat)) by (unfold path_equalities; rewrite Lq; done).
  apply Hby in Z3; [|exact LI|exact HI]. destruct Z3 as [Z3 HRest].
  assert (T3 : Equalities_Verify (path_equalities pp gzero (2 ^ j) q (lp_V lp)) (lp_Eq lp) = Ret nil_error <->
    msm (vmul (equality_weights pp lp n) (digit_gaps (F + 2) α (take (n - 1) p) (take (n - 1) q))) (blinded_parents pp lp n) = gzero).
  { rewrite EEq, Hby; [|rewrite app_length, replicate_length, Lk by done; lia|apply Forall_app; split; [apply Forall_take, B, Hq|apply Forall_replicate; lia]].
    rewrite (gaps_msm (F + 2) α (take (n - 1) p) (take (n - 1) q)) in Z3 by (rewrite !Lk; done).
    assert (Lg : length (digit_gaps (F + 2) α (take (n - 1) p) (take (n - 1) q)) = (n - 1)%nat) by (unfold digit_gaps; rewrite zip_with_length, !Lk by done; lia).
    unfold equality_weights, blinded_parents, equality_x, equality_scalar, equality_points. rewrite Hj'.
    pose proof (gadd_gap _ _ _ Z3) as G. rewrite (vmul_cut _ (digit_gaps (F + 2) α (take (n - 1) p) (take (n - 1) q))) in G by (rewrite Lg; lia). rewrite Lg in G. rewrite (msm_padded _ _ (vmul _ (digit_gaps (F + 2) α (take (n - 1) p) (take (n - 1) q)))) in G.
    - split; [intros [H _]; exact (proj1 G H)|]. intros H. split; [exact (proj2 G H)|exact HRest].
    - unfold vmul. rewrite zip_with_length, fmap_length, seq_length, Lg, take_length. lia. }
  split.
  - intros [_ _ _ _ _ _ _ Q8 _ (zc & m & Y1 & Y2 & Y3) (Vn' & i'' & M1 & M2 & M3)]. rewrite Lq in Q8, Y2. rewrite Z1 in Y1. injection Y1 as <-. rewrite Z2 in Y2. injection Y2 as <-.
    split; [|split; [apply T2; exact Q8|apply T3; exact Y3]]. intros V0 i0 j0 E1 E2 E3. rewrite L1 in E1, M1. rewrite L2 in E2. rewrite Hi' in E3, M2. injection E1 as <-. injection E2 as <-. injection E3 as <-. injection M1 as <-. injection M2 as <-.
    apply T1. exact M3.
  - intros (H1 & H2 & H3). split; rewrite ?Lq; try done.
    + apply T2. exact H2.
    + exists gzero, (2 ^ j)%nat. split; [exact Z1|]. split; [exact Z2|]. apply T3. exact H3.
    + exists Vn, i'. split; [exact L1|]. split; [exact Hi'|]. apply T1. apply H1; done.
Qed.

(** ** C94 *)
(** A proof that convinces one client convinces the other exactly if the three equations hold. *)
Theorem C94_two_clients : forall (C : Curve) F α n k (pp : PolPP C) (lp : LiabilityProof C) id id' V W id2path p q,
  params_ok F α n k pp -> id2path id = Ret p -> id2path id' = Ret q ->
  length p = n -> length q = n -> Forall (fun i => i < F)%nat p -> Forall (fun i => i < F)%nat q ->
  LiabilityProof_Verify lp pp id V W id2path = Ret nil_error ->
  (LiabilityProof_Verify lp pp id' V W id2path = Ret nil_error <-> transferable pp lp n (F + 2) α p q).
Proof.
  intros C F α n k pp lp id id' V W id2path p q Hpp Hp Hq Lp Lq Fp Fq H. apply accept_iff in H as (p' & Hp' & H). rewrite Hp in Hp'. injection Hp' as <-.
  rewrite <- (accepted_transfers F α n k pp lp V W p q Hpp Lp Lq Fp Fq H). rewrite accept_iff. split.
  - intros (q' & Hq' & H'). rewrite Hq in Hq'. injection Hq' as <-. exact H'.
  - intros H'. exists q. split; [exact Hq|exact H'].
Qed.
(** Paths of different lengths are never both accepted. *)
Theorem C94_lengths : forall (C : Curve) (pp : PolPP C) (lp : LiabilityProof C) id id' V W V' W' id2path p q,
  id2path id = Ret p -> id2path id' = Ret q -> LiabilityProof_Verify lp pp id V W id2path = Ret nil_error -> LiabilityProof_Verify lp pp id' V' W' id2path = Ret nil_error ->
  length p = length q.
Proof.
  intros C pp lp id id' V W V' W' id2path p q Hp Hq H H'. apply accept_iff in H as (p' & Hp' & H). apply accept_iff in H' as (q' & Hq' & H').
  rewrite Hp in Hp'. rewrite Hq in Hq'. injection Hp' as <-. injection Hq' as <-. rewrite <- (acc_W _ _ _ _ _ H). apply (acc_W _ _ _ _ _ H').
Qed.

Lemma no_gaps {M : Grp} N α p : forall ts (A : list M), msm (vmul ts (digit_gaps N α p p)) A = gzero.
Proof.
  induction p as [|i p IH]; intros [|t ts] [|P A]; try done. unfold vmul, digit_gaps in *. cbn [zip_with msm]. rewrite IH. module.
Qed.
Lemma one_gap {M : Grp} N α j i p : forall k ts (A : list M) t P, p !! k = Some i -> ts !! k = Some t -> A !! k = Some P ->
  msm (vmul ts (digit_gaps N α p (<[k := j]> p))) A = gmul (α ^ (N - i) - α ^ (N - j)) (gmul t P).
Proof.
  induction p as [|i0 p IH]; intros [|k] [|t0 ts] [|P0 A] t P Hp Ht HA; try done.
  - cbn in Hp, Ht, HA. injection Hp as ->. injection Ht as ->. injection HA as ->. pose proof (no_gaps N α p ts A) as Z. unfold vmul, digit_gaps in *. cbn [insert list_insert zip_with msm]. rewrite Z. module.
  - cbn in Hp, Ht, HA. pose proof (IH k ts A t P Hp Ht HA) as Z. unfold vmul, digit_gaps in *. change (<[S k := j]> (i0 :: p)) with (i0 :: <[k := j]> p). cbn [zip_with msm]. rewrite Z. module.
Qed.
Lemma gmul_0_iff {M : Grp} x (P : M) : x <> 0 -> (gmul x P = gzero <-> P = gzero).
Proof. intros Hx. split; [intros H; apply gmul_eq_0 in H as [H|H]; done|intros ->; module]. Qed.
Lemma gmul_0_or {M : Grp} x (P : M) : gmul x P = gzero <-> x = 0 \/ P = gzero.
Proof. split; [apply gmul_eq_0|]. intros [->| ->]; module. Qed.
(** Two clients whose paths differ in one digit, say number k.  If it is the last one, i.e. both liabilities are in the same vertex, the proof
    is transferable exactly if the commitment of that vertex is zero.  If not, a digest commitment, and a blinded commitment, or else a hash,
    must be zero. *)
Theorem C94_one_digit : forall (C : Curve) F α n e (pp : PolPP C) (lp : LiabilityProof C) id id' V W id2path p k i j,
  params_ok F α n e pp -> id2path id = Ret p -> id2path id' = Ret (<[k := j]> p) -> length p = n -> Forall (fun i => i < F)%nat p ->
  p !! k = Some i -> (j < F)%nat -> α ^ (F + 2 - i) <> α ^ (F + 2 - j) ->
  LiabilityProof_Verify lp pp id V W id2path = Ret nil_error ->
  let accepted' := LiabilityProof_Verify lp pp id' V W id2path = Ret nil_error in
  ((k + 1)%nat = n -> (accepted' <-> last (lp_V lp) = Some gzero)) /\
  ((k + 1 < n)%nat -> exists Wk Bk t u, lp_W lp !! k = Some Wk /\ blinded_parents pp lp n !! k = Some Bk /\
     digest_weights pp lp n !! k = Some t /\ equality_weights pp lp n !! k = Some u /\
     (accepted' <-> (t = 0 \/ Wk = gzero) /\ (u = 0 \/ Bk = gzero))).
Proof.
  intros C F α n e pp lp id id' V W id2path p k i j Hpp Hp Hq Lp Fp Hi Hj Hα H accepted'.
  assert (Fq : Forall (fun i => i < F)%nat (<[k := j]> p)) by (apply Forall_insert; done).
  pose proof (C94_two_clients C F α n e pp lp id id' V W id2path p _ Hpp Hp Hq Lp ltac:(rewrite insert_length; exact Lp) Fp Fq H) as Hiff.
  assert (Hgap : α ^ (F + 2 - i) - α ^ (F + 2 - j) <> 0). { intros E. apply Hα. transitivity (α ^ (F + 2 - i) - α ^ (F + 2 - j) + α ^ (F + 2 - j)); [ring|]. rewrite E. ring. }
  fold accepted' in Hiff. pose proof H as Hacc. apply accept_iff in Hacc as (p' & Hp' & Hacc). rewrite Hp in Hp'. injection Hp' as <-.
  destruct (acc_liability _ _ _ _ _ Hacc) as (Vn & il & HVn & Hil & _). unfold transferable in Hiff. split.
  - intros Hk. rewrite Hiff. clear Hiff. rewrite take_insert by lia. rewrite !no_gaps.
    assert (Hlast : last p = Some i) by (rewrite last_lookup, Lp; replace (pred n) with k by lia; exact Hi).
    assert (Hlastq : last (<[k := j]> p) = Some j). { rewrite last_lookup, insert_length, Lp. replace (pred n) with k by lia. apply list_lookup_insert. apply lookup_lt_Some in Hi. exact Hi. }
    rewrite HVn. split.
    + intros (E & _). specialize (E Vn i j Logic.eq_refl Hlast Hlastq). apply gmul_0_iff in E; [congruence|exact Hgap].
    + intros [= ->]. split; [|done]. intros V0 i0 j0 [= <-] _ _. module.
  - intros Hk. assert (exists Wk, lp_W lp !! k = Some Wk) as [Wk HWk] by (apply lookup_lt_is_Some_2; pose proof (acc_W _ _ _ _ _ Hacc); lia).
    assert (exists j', length (pe_G (po_POEPP pp)) = (2 ^ j')%nat /\ (n - 1 <= 2 ^ j')%nat) as (j' & Hj' & Hnj) by (destruct Hpp as (_ & _ & _ & _ & _ & _ & _ & _ & _ & _ & j' & ? & Hpoe & ? & _); exists j'; split; [apply Hpoe|done]).
    destruct (C83_accepted_shape C F α n e j' pp lp id V W id2path p Hpp Hj' Hp Lp Fp H) as (_ & S1 & _ & _ & _ & S2 & _).
    assert (exists Bk, blinded_parents pp lp n !! k = Some Bk) as [Bk HBk].
    { apply lookup_lt_is_Some_2. unfold blinded_parents, gvadd. rewrite zip_with_length, gvscale_length, take_length. lia. }
    assert (exists t, digest_weights pp lp n !! k = Some t) as [t Ht] by (apply lookup_lt_is_Some_2; unfold digest_weights; rewrite fmap_length, seq_length; lia).
    assert (exists u, equality_weights pp lp n !! k = Some u) as [u Hu] by (apply lookup_lt_is_Some_2; unfold equality_weights; rewrite fmap_length, seq_length; lia).
    exists Wk, Bk, t, u. split; [exact HWk|]. split; [exact HBk|]. split; [exact Ht|]. split; [exact Hu|]. rewrite Hiff. clear Hiff.
    assert (Et : take (n - 1) (<[k := j]> p) = <[k := j]> (take (n - 1) p)).
    { apply list_eq. intros l. destruct (decide (l < n - 1)%nat) as [Hl|Hl].
      - rewrite lookup_take by lia. destruct (decide (k = l)) as [->|Hkl].
        + rewrite !list_lookup_insert; [done|rewrite take_length; lia|lia].
        + rewrite !list_lookup_insert_ne by done. rewrite lookup_take by lia. done.
      - rewrite lookup_take_ge by lia. rewrite list_lookup_insert_ne by lia. rewrite lookup_take_ge by lia. done. }
    assert (Hi' : take (n - 1) p !! k = Some i) by (rewrite lookup_take by lia; exact Hi).
    rewrite Et. rewrite (one_gap (F + 2) α j i _ k _ _ t Wk Hi' Ht HWk), (one_gap (F + 2) α j i _ k _ _ u Bk Hi' Hu HBk). rewrite !gmul_0_iff by exact Hgap. rewrite !gmul_0_or.
    split; [tauto|]. intros Hz. split; [|tauto]. intros V0 i0 j0 E0 E1 E2. rewrite last_lookup in E1, E2. rewrite insert_length in E2. rewrite list_lookup_insert_ne in E2 by lia. rewrite E1 in E2. injection E2 as <-. 
    replace (α ^ (F + 2 - i0) - α ^ (F + 2 - i0)) with 0 by ring. apply gmul_0.
Qed.

(** For two different digits, few trapdoors make the powers equal. *)
Theorem C94_few_trapdoors : forall N i j (αs : list Zr), (i < j <= N)%nat -> NoDup αs -> Forall (fun α => α <> 0 /\ α ^ (N - i) = α ^ (N - j)) αs ->
  (length αs <= j - i)%nat.
Proof.
  intros N i j αs Hij Hd H. apply Nat.nlt_ge. intros Hlt. set (d := (j - i)%nat) in *.
  assert (P : Forall (fun c => c = 0) (zopp 1 :: zeros (d - 1) ++ [1])).
  { apply (poly_roots _ (take (d + 1) αs)).
    - cbn [length]. rewrite app_length, zeros_length, take_length. cbn [length]. lia.
    - apply (NoDup_app _ (drop (d + 1) αs)). rewrite take_drop. exact Hd.
    - apply Forall_take. eapply Forall_impl; [exact H|]. cbn beta. intros α [H0 E]. cbn [peval].
      assert (Ep : forall m, peval (zeros m ++ [1]) α = α ^ m). { induction m as [|m IH]; [cbn; ring|]. change (zeros (S m)) with (0 :: zeros m). cbn [app peval]. rewrite IH. cbn [zpow]. ring. }
      rewrite Ep. assert (E1 : α ^ d = 1).
      { replace (N - i)%nat with (d + (N - j))%nat in E by lia. rewrite zpow_add in E. assert (Ez : α ^ (N - j) * (α ^ d - 1) = 0) by (transitivity (α ^ d * α ^ (N - j) - α ^ (N - j)); [ring|]; rewrite E; ring). apply zmul_eq_0 in Ez as [Ez|Ez]; [by apply zpow_neq_0 in Ez|]. transitivity (α ^ d - 1 + 1); [ring|]. rewrite Ez. ring. }
      replace (α * α ^ (d - 1)) with (α ^ d); [rewrite E1; ring|]. replace d with (S (d - 1)) at 1 by lia. cbn [zpow]. ring. }
  apply Forall_cons in P as [P _]. apply z1_neq_0. transitivity (zopp (zopp 1)); [ring|]. rewrite P. ring.
Qed.
(** With the trapdoor 1 all of them are equal, and every accepted proof convinces everybody. *)
Theorem C94_trapdoor_one : forall (C : Curve) F n k (pp : PolPP C) (lp : LiabilityProof C) id id' V W id2path p q,
  params_ok F 1 n k pp -> id2path id = Ret p -> id2path id' = Ret q ->
  length p = n -> length q = n -> Forall (fun i => i < F)%nat p -> Forall (fun i => i < F)%nat q ->
  LiabilityProof_Verify lp pp id V W id2path = Ret nil_error -> LiabilityProof_Verify lp pp id' V W id2path = Ret nil_error.
Proof.
  intros C F n k pp lp id id' V W id2path p q Hpp Hp Hq Lp Lq Fp Fq H. apply (C94_two_clients C F 1 n k pp lp id id' V W id2path p q Hpp Hp Hq Lp Lq Fp Fq H).
  assert (E1 : forall m, 1 ^ m = 1) by (induction m as [|m IH]; [done|]; cbn [zpow]; rewrite IH; ring).
  assert (G : forall (p q : path) ts (A : list (G1 C)), msm (vmul ts (digit_gaps (F + 2) 1 p q)) A = gzero).
  { clear -E1. induction p as [|i p IH]; intros [|j q] [|t ts] [|P A]; try done. unfold vmul, digit_gaps in *. cbn [zip_with msm]. rewrite IH, !E1. module. }
  split; [|split; apply G]. intros Vn i j _ _ _. rewrite !E1. module.
Qed.
Print Assumptions C94_two_clients.
Print Assumptions C94_lengths.
Print Assumptions C94_one_digit.
Print Assumptions C94_few_trapdoors.
Print Assumptions C94_trapdoor_one.

(** ** Concrete cases *)
(** The example of Prop_liability.v, for any trapdoor *)
Lemma ex_dense_run_at α : exists (pp : PolPP toy) k g ls ls' V W lp, params_ok 7 α 11 k pp /\ GeneratePublicParams 7 Dense α = Ret (g, pp) /\ (forall fuel, g fuel = digit_path 7) /\
  set_run pp ex_rnd ex_order (digit_path 7) ex_dense ls /\ honest_state 7 α pp ex_rnd ex_order (digit_path 7) ex_dense_paths ex_dense ls "123456789" ex_dense_p1 5 /\
  Root (C:=toy) ls = Ret (ls', Some (V, Some W)) /\ ProveLiability pp (digit_path 7) (ex_coins pp) ls "123456789" = Ret (Some (5%Z, lp)) /\
  LiabilityProof_Verify lp pp "123456789" V W (digit_path 7) = Ret nil_error.
Proof.
  assert (Hsup : supported 7 Dense) by (exists 3%Z; done).
  destruct (generate_spec (C:=toy) 7 Dense α Hsup) as (n & g & pp & k & HG & Hfl & _ & Hp & (h & Hh & Hg) & _).
  rewrite (DigitPath_pow2 3 ltac:(lia) : DigitPath 7 = Ret (digit_path 7)) in Hh. injection Hh as <-.
  assert (n = 11%nat) as -> by (assert (E : full_path_length 7 Dense 11) by done; unfold full_path_length in Hfl, E; congruence).
  change (Z.to_nat 7) with 7%nat in Hp. pose proof (params_ok_tree _ _ _ _ _ Hp) as Ht.
  assert (H0 : set_run pp ex_rnd ex_order (digit_path 7) [] (NewLiabilitySet ∅)) by (split; [apply ex_order_perm|exists ∅; done]).
  destruct (C44_set_never_fails toy 7 α pp ex_rnd ex_order (digit_path 7) ex_dense_paths 11 [] (NewLiabilitySet ∅) "123456789" 5 Ht) as [ls1 Hls1]; [apply ex_dense_fixed; auto|exact H0|done|].
  assert (H1 : set_run pp ex_rnd ex_order (digit_path 7) [CSet "123456789" 5] ls1) by (apply (set_run_app _ _ _ _ [] _ _ _ H0); cbn [do_calls do_call]; rewrite Hls1; exact Logic.eq_refl).
  destruct (C44_set_never_fails toy 7 α pp ex_rnd ex_order (digit_path 7) ex_dense_paths 11 [CSet "123456789" 5] ls1 "987654321" 7 Ht) as [ls Hls]; [apply ex_dense_fixed; auto|exact H1|done|].
  assert (H2 : set_run pp ex_rnd ex_order (digit_path 7) ex_dense ls) by (apply (set_run_app _ _ _ _ [CSet "123456789" 5] [CSet "987654321" 7] _ _ H1); cbn [do_calls do_call]; rewrite Hls; exact Logic.eq_refl).
  assert (Hf : fixed_paths 7 (digit_path 7) ex_dense_paths 11 (sets ex_dense)) by (apply ex_dense_fixed; auto).
  assert (Hhon : honest_state 7 α pp ex_rnd ex_order (digit_path 7) ex_dense_paths ex_dense ls "123456789" ex_dense_p1 5).
  { unfold honest_state. change (length ex_dense_p1) with 11%nat. split; [lia|]. split; [by exists k|]. split; [exact Hf|]. split; [exact H2|]. split; [rewrite ex_dense_total; lia|]. split; [exact ex_dense_path1|].
    split; [vm_compute; done|]. vm_compute. done. }
  destruct (C53_returned toy 7 α pp ex_rnd ex_order (digit_path 7) ex_dense_paths ex_dense ls _ _ _ (ex_coins pp) Hhon (ex_coins_fit pp)) as (ws & rps & _ & _ & _ & _ & HPL).
  destruct HPL as (lp & HPL & _).
  { generalize (v_V <$> ws). induction rps as [|rp l IH]; intros [|V k']; [constructor..|]. cbn [zip_with concat]. apply Forall_app. split; [apply toy_range_challenges|apply IH]. }
  destruct (C52_first_call toy 7 α pp ex_rnd ex_order (digit_path 7) ex_dense_paths 11 ex_dense ls Ht Hf ltac:(lia) H2) as (ls' & V & W & HR & _); [done|unfold ex_dense; intros Hin; repeat (apply elem_of_cons in Hin as [Hin|Hin]; [discriminate Hin|]); by apply elem_of_nil in Hin|].
  assert (Hg' : forall fuel, g fuel = digit_path 7) by (intros; rewrite Hg; done).
  destruct (C53_generated toy 7 Dense α g pp 0 ex_rnd ex_order ex_dense_paths 11 ex_dense ls ls' "123456789" ex_dense_p1 5 (ex_coins pp) 5 lp V W Hsup HG Hfl) as (_ & W' & -> & Hv);
    try (rewrite Hg'); [exact Hf|exact H2|unfold ex_dense; intros Hin; repeat (apply elem_of_cons in Hin as [Hin|Hin]; [discriminate Hin|]); by apply elem_of_nil in Hin|
      change (Z.to_nat 7) with 7%nat; rewrite ex_dense_total; lia|exact ex_dense_path1|done|vm_compute; done|vm_compute; done|apply ex_coins_fit|exact HPL|exact HR|].
  exists pp, k, g, ls, ls', V, W', lp. split; [exact Hp|]. split; [exact HG|]. split; [exact Hg'|]. split; [exact H2|]. split; [exact Hhon|]. split; [exact HR|]. split; [exact HPL|]. rewrite Hg' in Hv. apply Hv, toy_proof_challenges.
Qed.

Lemma ex_fits1 : Forall (fun i => i < 7)%nat ex_dense_p1. Proof. unfold ex_dense_p1. repeat (apply Forall_cons; split; [lia|]). constructor. Qed.
Lemma ex_fits2 : Forall (fun i => i < 7)%nat ex_dense_p2. Proof. unfold ex_dense_p2. repeat (apply Forall_cons; split; [lia|]). constructor. Qed.
Lemma ex_dense_path2 : digit_path 7 "987654321" = Ret ex_dense_p2. Proof. vm_compute. reflexivity. Qed.
(** The honest proof of the first client convinces the second one, whose liability is elsewhere, and larger. *)
Example C94_trapdoor_one_nonvacuous : exists (pp : PolPP toy) k V W lp, params_ok 7 1 11 k pp /\ digit_path 7 "123456789" = Ret ex_dense_p1 /\ digit_path 7 "987654321" = Ret ex_dense_p2 /\
  LiabilityProof_Verify lp pp "123456789" V W (digit_path 7) = Ret nil_error /\ LiabilityProof_Verify lp pp "987654321" V W (digit_path 7) = Ret nil_error.
Proof.
  destruct (ex_dense_run_at 1) as (pp & k & g & ls & ls' & V & W & lp & Hp & _ & _ & _ & _ & _ & _ & H).
  exists pp, k, V, W, lp. split; [exact Hp|]. split; [exact ex_dense_path1|]. split; [exact ex_dense_path2|]. split; [exact H|].
  exact (C94_trapdoor_one toy 7 11 k pp lp _ _ V W (digit_path 7) _ _ Hp ex_dense_path1 ex_dense_path2 Logic.eq_refl Logic.eq_refl ex_fits1 ex_fits2 H).
Qed.
(** The last commitment of an honest proof: the one of the client's vertex *)
Lemma honest_last {C : Curve} F α (pp : PolPP C) rnd order id2path pathof cs ls id p z co z' lp : honest_state F α pp rnd order id2path pathof cs ls id p z -> coins_fit pp co ->
  (forall rps (ws : list (Vertex C)), nonzero (concat (zip_with (range_challenges (po_RPPP pp)) rps (v_V <$> ws)))) ->
  ProveLiability pp id2path co ls id = Ret (Some (z', lp)) ->
  exists w : Vertex C, last (lp_V lp) = Some (commitment (F + 2) α (values_vec F w)) /\ stored (vs_db (vt_state (ls_tree ls))) (path_key (take (length p - 1) p)) w.
Proof.
  intros Hh Hco Hnz HPL. destruct (honest_chain F α pp rnd order id2path pathof cs ls id p z Hh) as (Hn & Hid & [k Hp] & ws & HG & Hch & _).
  destruct Hh as (_ & _ & H3 & H4 & H5 & _ & H7 & H8).
  destruct (run_chain0 F α pp rnd order id2path pathof (length p) cs ls id p z (params_ok_tree _ _ _ _ _ Hp) H3 Hn H4 H5 Hid Logic.eq_refl H7) as (ws' & HG' & _ & Hst).
  rewrite HG in HG'. injection HG' as <-.
  destruct (run_ranges F α k pp p ws z co Hp Hn Hch Hco) as (rps & Lr & Hrps).
  assert (HR : forall i w rp, ws !! i = Some w -> rps !! i = Some rp -> ProveRange (po_RPPP pp) (v_V w) (Vertex_Values w (F + 1)) (v_bf w) (pc_range co i) = Ret rp).
  { intros i w rp Hw Hrp. apply (Hrps i w rp Hw Hrp). apply (nonzero_concat _ _ _ i rp (v_V w) (Hnz rps ws) Hrp). rewrite list_lookup_fmap, Hw. done. }
  destruct (run_proof F α k pp p ws z co Hp Hn Hch Hco rps ls id id2path Lr HR Hid HG) as (Σ & π & sumArg & Dg & eqp & πX & w0' & d0 & Hrun & _).
  cbv zeta in Hrun. rewrite HPL in Hrun. injection Hrun as _ ->. cbn [lp_V].
  pose proof (ch_len _ _ _ _ _ Hch) as L. destruct (lookup_lt_is_Some_2 ws (length p - 1)%nat ltac:(lia)) as [w Hw]. exists w. split; [|apply Hst; exact Hw].
  rewrite last_lookup, fmap_length, L. replace (pred (length p)) with (length p - 1)%nat by lia. rewrite list_lookup_fmap, Hw. cbn. f_equal. pose proof (ch_ok _ _ _ _ _ Hch) as Hok. rewrite Forall_lookup in Hok. apply (Hok _ _ Hw).
Qed.
Lemma ex_last (pp : PolPP toy) ls lp : honest_state 7 (zr 5) pp ex_rnd ex_order (digit_path 7) ex_dense_paths ex_dense ls "123456789" ex_dense_p1 5 ->
  ProveLiability pp (digit_path 7) (ex_coins pp) ls "123456789" = Ret (Some (5%Z, lp)) -> last (lp_V lp) <> Some gzero.
Proof.
  intros Hh HPL. assert (Hnz : forall rps (ws : list (Vertex toy)), nonzero (concat (zip_with (range_challenges (po_RPPP pp)) rps (v_V <$> ws)))).
  { intros rps ws. generalize (v_V <$> ws). induction rps as [|rp l IH]; intros [|V k']; [constructor..|]. cbn [zip_with concat]. apply Forall_app. split; [apply toy_range_challenges|apply IH]. }
  destruct (honest_last 7 (zr 5) pp ex_rnd ex_order (digit_path 7) ex_dense_paths ex_dense ls "123456789" ex_dense_p1 5 (ex_coins pp) 5%Z lp Hh (ex_coins_fit pp) Hnz HPL) as (w & Hlast & Hw).
  change (take (length ex_dense_p1 - 1) ex_dense_p1) with [1;2;2;6;3;2;6;2;0;3]%nat in Hw. destruct Hh as (_ & [k Hp] & H3 & H4 & _).
  destruct (set_run_verkle 7 (zr 5) _ _ _ _ _ _ (params_ok_tree _ _ _ _ _ Hp) ltac:(lia) H4) as [Hv _].
  assert (Hb : below ex_dense_paths (sets ex_dense) [1;2;2;6;3;2;6;2;0;3]%nat) by (exists "123456789"%string, 5%Z; split; [left|exists [0%nat]; done]).
  destruct (bottom_contents 7 (zr 5) ex_rnd ex_order (digit_path 7) ex_dense_paths [1;2;2;6;3;2;6;2;0;3]%nat (sets ex_dense) _ w H3 Hv Hb Hw) as [Ev Es].
  destruct Hv as [Ho [db0 Ht]]. destruct H3 as [HF Hg].
  destruct (commitment_blinding 7 (zr 5) (digit_path 7) ex_dense_paths 11 HF ex_rnd ex_order (sets ex_dense) db0 _ _ Ho Hg Ht Hb ltac:(cbn; lia)) as (w' & Hw' & Ebf & _).
  rewrite (stored_fun _ _ _ _ Hw' Hw) in Ebf. rewrite Hlast. clear -Ev Es Ebf.
  assert (E : values_vec 7 w = [zr 5; 0; 0; 0; 0; 0; 0; zr 5; zr 100]).
  { unfold values_vec. rewrite Ev, Es, Ebf. clear. vm_compute. reflexivity. }
  rewrite E. unfold commitment. intros H. apply (inj Some) in H. apply gmul_eq_0 in H as [H|H]; [|by apply gen1_neq_0 in H]. apply (f_equal zv) in H. vm_compute in H. discriminate H.
Qed.
(** The honest proof of the first client does not convince a client of the same vertex. *)
Example C94_one_digit_nonvacuous : exists (pp : PolPP toy) k V W lp, params_ok 7 (zr 5) 11 k pp /\ digit_path 7 "123456789" = Ret ex_dense_p1 /\ digit_path 7 "405932038" = Ret (<[10%nat := 1%nat]> ex_dense_p1) /\
  zr 5 ^ (7 + 2 - 0) <> zr 5 ^ (7 + 2 - 1) /\
  LiabilityProof_Verify lp pp "123456789" V W (digit_path 7) = Ret nil_error /\ LiabilityProof_Verify lp pp "405932038" V W (digit_path 7) <> Ret nil_error.
Proof.
  destruct (ex_dense_run_at (zr 5)) as (pp & k & g & ls & ls' & V & W & lp & Hp & _ & _ & _ & Hh & _ & HPL & H).
  assert (Hα : zr 5 ^ (7 + 2 - 0) <> zr 5 ^ (7 + 2 - 1)) by (intros E; apply (f_equal zv) in E; vm_compute in E; discriminate E).
  exists pp, k, V, W, lp. split; [exact Hp|]. split; [exact ex_dense_path1|]. split; [exact ex_near_path|]. split; [exact Hα|]. split; [exact H|]. intros H'.
  pose proof (C94_one_digit toy 7 (zr 5) 11 k pp lp _ _ V W (digit_path 7) ex_dense_p1 10 0 1 Hp ex_dense_path1 ex_near_path Logic.eq_refl ex_fits1 Logic.eq_refl ltac:(lia) Hα H) as [Hc _].
  apply (ex_last pp ls lp Hh HPL). apply Hc; [done|exact H'].
Qed.
(** Two trapdoors for digits two apart: 1 and -1 *)
Example C94_few_trapdoors_nonvacuous : NoDup [1; zopp 1] /\ Forall (fun α => α <> 0 /\ α ^ (9 - 0) = α ^ (9 - 2)) [1; zopp 1].
Proof.
  assert (E : 1 <> zopp 1) by (intros E; apply (f_equal zv) in E; vm_compute in E; discriminate E). split.
  - apply NoDup_cons. split; [|apply NoDup_singleton]. intros H. by apply elem_of_list_singleton in H.
  - apply Forall_cons. split; [split; [apply z1_neq_0|cbn [Nat.sub zpow]; ring]|]. apply Forall_cons. split; [|constructor].
    split; [intros H; apply (f_equal zv) in H; vm_compute in H; discriminate H|cbn [Nat.sub zpow]; ring].
Qed.
