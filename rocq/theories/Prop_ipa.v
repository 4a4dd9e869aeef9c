(** Properties C12–C16: package bp, inner-product argument (bp/innerprod.go). *)
From Verif Require Import Ipa_facts Extract Toy.
Local Open Scope Zr_scope.

(** The challenges of the run that [Verify] replays for a proof: one per pair of elements of LRs, each
    the hash of the pair and of the digest of the parameters with U replaced by U^x. *)
Definition ipa_challenges {C : Curve} (pp : bpPP C) (p : IPProof C) : list Zr :=
  chal (inst_digest pp) (ipp_LRs p).
(** The challenge of the first step ("protocol 1"); it is a hash of pp.Digest only. *)
Definition ipa_first_challenge {C : Curve} (pp : bpPP C) : Zr := fe (sha256 C (bp_Digest pp)).

(** ** C12 *)
Theorem C12_ipa_complete : forall (C : Curve) (pp : bpPP C) k a b,
  length a = (2 ^ k)%nat -> length b = (2 ^ k)%nat ->
  length (bp_G pp) = (2 ^ k)%nat -> length (bp_H pp) = (2 ^ k)%nat ->
  exists arg p, NewInnerProdArgument pp a b = Ret arg /\ IPA_Prove arg = Ret p /\
    ipp_P p = gadd (msm a (bp_G pp)) (msm b (bp_H pp)) /\ ipp_C p = dot a b /\ length (ipp_LRs p) = (2 * k)%nat /\
    (Forall (fun x => x <> 0) (ipa_challenges pp p) -> IPP_Verify p pp = Ret nil_error).
Proof.
  intros C pp k a b Ha Hb HG HH.
  assert (Hne : a <> []). { intros ->. cbn in Ha. pose proof (Nat.pow_nonzero 2 k). lia. }
  destruct (ipa_honest_body_iff k pp a b (dot a b) (gadd (msm a (bp_G pp)) (msm b (bp_H pp)))
    (dot a b) (gadd (msm a (bp_G pp)) (msm b (bp_H pp)))) as (LRs & al & be & Hp & HL & Hv); [done..|].
  eexists _, _. split; [apply new_ipa_spec; [lia|done|lia|lia]|]. split; [exact Hp|].
  cbn [ipp_P ipp_C ipp_LRs]. repeat split; [done|].
  intros Hnz. destruct (Hv Hnz) as (e & He & Hiff). rewrite He. f_equal. apply Hiff.
  unfold ipa_com. module.
Qed.
(** The parameters made by NewPublicParams(2^k) have the required lengths. *)
Theorem C12_generated_params : forall (C : Curve) n, exists pp,
  bp_NewPublicParams (C:=C) n = Ret pp /\ length (bp_G pp) = n /\ length (bp_H pp) = n /\
  bp_G pp = RandGenVec n "g" /\ bp_H pp = RandGenVec n "h" /\ RandGenVec (C:=C) 1 "u" = [bp_U pp].
Proof.
  intros C n. eexists. split.
  - unfold bp_NewPublicParams. cbn [RandGenVec seq fmap list_fmap idx rbind lookup list_lookup].
    apply setup_digest_spec. right. cbn [bp_G bp_H]. rewrite !rand_gen_vec_length. done.
  - cbn [bp_G bp_H bp_U]. rewrite !rand_gen_vec_length. done.
Qed.
Print Assumptions C12_ipa_complete.
Print Assumptions C12_generated_params.
Example C12_nonvacuous : exists pp arg p, bp_NewPublicParams (C:=toy) 4 = Ret pp /\
  NewInnerProdArgument pp [zr 1; zr 2; zr 3; zr 4] [zr 5; zr 6; zr 7; zr 8] = Ret arg /\ IPA_Prove arg = Ret p /\
  IPP_Verify p pp = Ret nil_error.
Proof.
  destruct (C12_generated_params toy 4) as (pp & Hpp & HG & HH & _).
  destruct (C12_ipa_complete toy pp 2 [zr 1; zr 2; zr 3; zr 4] [zr 5; zr 6; zr 7; zr 8]) as (arg & p & H1 & H2 & _ & _ & _ & H3); [done..|].
  exists pp, arg, p. repeat split; try done. apply H3. unfold ipa_challenges. generalize (ipp_LRs p). clear.
  fix IH 1. intros [|L [|R t]]; cbn [chal]; [constructor..|]. constructor; [apply toy_challenge_neq_0|apply IH].
Qed.

(** ** C13 *)
Definition with_claim {C : Curve} (p : IPProof C) (c : Zr) : IPProof C :=
  MkIPP (ipp_LRs p) (ipp_a p) (ipp_b p) (ipp_P p) c.
Definition with_P {C : Curve} (p : IPProof C) (P : G1 C) : IPProof C :=
  MkIPP (ipp_LRs p) (ipp_a p) (ipp_b p) P (ipp_C p).

(** No assumption on the number of generators here. *)
Lemma ipa_verify_P_unique {C : Curve} (pp : bpPP C) a b : forall LRs P P' g h,
  ipa_verify pp P g h LRs a b = Ret nil_error -> ipa_verify pp P' g h LRs a b = Ret nil_error -> P = P'.
Proof.
  fix IH 1. intros LRs P P' g h H H'.
  assert (Hbase : forall (g h : list (G1 C)), 
    (let! g0 := idx g 0 in let! h0 := idx h 0 in
     if geqb (gadd (gadd (gmul (a * b) (bp_U pp)) (gmul a g0)) (gmul b h0)) P then Ret nil_error else Ret (Err "P != g^a*h^b*u^c")) = Ret nil_error ->
    (let! g0 := idx g 0 in let! h0 := idx h 0 in
     if geqb (gadd (gadd (gmul (a * b) (bp_U pp)) (gmul a g0)) (gmul b h0)) P' then Ret nil_error else Ret (Err "P != g^a*h^b*u^c")) = Ret nil_error -> P = P').
  { clear. intros g h H H'. destruct (idx g 0) as [g0| |]; [|done..]. destruct (idx h 0) as [h0| |]; [|done..]. cbn [rbind] in *.
    destruct (geqb _ P) eqn:E in H; [|done]. destruct (geqb _ P') eqn:E' in H'; [|done].
    apply geqb_eq in E, E'. congruence. }
  destruct LRs as [|L [|R t]]; cbn [ipa_verify] in H, H'; destruct (length g =? 1)%nat; try (exact (Hbase g h H H')); try done.
  apply rbind_inv in H, H'. destruct H as (np & Hnp & H). destruct H' as (np' & Hnp' & H').
  assert (E : np_g np = np_g np' /\ np_h np = np_h np' /\
    np_P np = gadd (gadd (gmul (np_x np * np_x np) L) P) (gmul (zinv (np_x np * np_x np)) R) /\
    np_P np' = gadd (gadd (gmul (np_x np * np_x np) L) P') (gmul (zinv (np_x np * np_x np)) R)).
  { unfold computeNextParams in Hnp, Hnp'.
    destruct (FieldElementFromBytes _) as [x| |]; [|done..]; cbn [rbind] in *.
    destruct (slice_to _ g); [|done..]; cbn [rbind] in *. destruct (slice_from _ g); [|done..]; cbn [rbind] in *.
    destruct (G1v_HadamardProd _ _); [|done..]; cbn [rbind] in *.
    destruct (slice_to _ h); [|done..]; cbn [rbind] in *. destruct (slice_from _ h); [|done..]; cbn [rbind] in *.
    destruct (G1v_HadamardProd _ _); [|done..]; cbn [rbind] in *.
    inversion Hnp. inversion Hnp'. done. }
  destruct E as (Eg & Eh & EP & EP'). rewrite <- Eg, <- Eh in H'.
  pose proof (IH t _ _ _ _ H H') as E. rewrite EP, EP' in E.
  apply gadd_cancel_r in E. exact (gadd_cancel_l _ _ _ E).
Qed.

Theorem C13_claim_unique : forall (C : Curve) (pp : bpPP C) (p : IPProof C) c c',
  IPP_Verify (with_claim p c) pp = Ret nil_error -> IPP_Verify (with_claim p c') pp = Ret nil_error ->
  ipa_first_challenge pp <> 0 -> bp_U pp <> gzero -> c = c'.
Proof.
  intros C pp p c c' H H' Hx HU. unfold IPP_Verify in H, H'.
  apply rbind_inv in H, H'. destruct H as ([pp1 P1] & E1 & H). destruct H' as ([pp2 P2] & E2 & H').
  assert (E : pp1 = pp2 /\ P1 = gadd (ipp_P p) (gmul (ipa_first_challenge pp * c) (bp_U pp)) /\
    P2 = gadd (ipp_P p) (gmul (ipa_first_challenge pp * c') (bp_U pp))).
  { unfold computeInstanceSpecificParams, SHA256Digest in E1, E2. rewrite fe_sha in E1, E2. cbn [rbind with_claim ipp_P ipp_C] in E1, E2.
    fold (ipa_first_challenge pp) in E1, E2.
    destruct (RecomputeDigest _); [|done..]. cbn [rbind] in *. inversion E1. inversion E2. subst. done. }
  destruct E as (-> & -> & ->). cbn [with_claim ipp_LRs ipp_a ipp_b] in *.
  pose proof (ipa_verify_P_unique pp2 _ _ _ _ _ _ _ H H') as E. apply gadd_cancel_l in E.
  assert (E0 : gmul (ipa_first_challenge pp * (c - c')) (bp_U pp) = gzero).
  { transitivity (gadd (gmul (ipa_first_challenge pp * c) (bp_U pp)) (gopp (gmul (ipa_first_challenge pp * c') (bp_U pp)))).
    - generalize (ipa_first_challenge pp). intros z. module.
    - rewrite E. apply gadd_opp_r. }
  apply gmul_eq_0 in E0. destruct E0 as [E0|E0]; [|done].
  apply zmul_eq_0 in E0. destruct E0 as [E0|E0]; [done|]. by apply zsub_eq_0.
Qed.
(** Likewise, at most one P is accepted with a given proof body and claim. *)
Theorem C13_commitment_unique : forall (C : Curve) (pp : bpPP C) (p : IPProof C) P P',
  IPP_Verify (with_P p P) pp = Ret nil_error -> IPP_Verify (with_P p P') pp = Ret nil_error -> P = P'.
Proof.
  intros C pp p P P' H H'. unfold IPP_Verify in H, H'.
  apply rbind_inv in H, H'. destruct H as ([pp1 P1] & E1 & H). destruct H' as ([pp2 P2] & E2 & H').
  unfold computeInstanceSpecificParams, SHA256Digest in E1, E2. rewrite fe_sha in E1, E2. cbn [rbind with_P ipp_P ipp_C] in E1, E2.
  destruct (RecomputeDigest _); [|done..]. cbn [rbind] in *. inversion E1. inversion E2. subst.
  cbn [with_P ipp_LRs ipp_a ipp_b] in *.
  pose proof (ipa_verify_P_unique _ _ _ _ _ _ _ _ H H') as E. exact (gadd_cancel_r _ _ _ E).
Qed.
(** An honest proof with an altered claim is rejected with an error. *)
Theorem C13_altered_claim_rejected : forall (C : Curve) (pp : bpPP C) k a b arg p c',
  length a = (2 ^ k)%nat -> length b = (2 ^ k)%nat ->
  length (bp_G pp) = (2 ^ k)%nat -> length (bp_H pp) = (2 ^ k)%nat ->
  NewInnerProdArgument pp a b = Ret arg -> IPA_Prove arg = Ret p -> 
  Forall (fun x => x <> 0) (ipa_challenges pp p) -> ipa_first_challenge pp <> 0 -> bp_U pp <> gzero ->
  c' <> dot a b -> exists msg, IPP_Verify (with_claim p c') pp = Ret (Err msg).
Proof.
  intros C pp k a b arg p c' Ha Hb HG HH Harg Hp Hnz Hx HU Hc.
  assert (Hne : a <> []). { intros ->. cbn in Ha. pose proof (Nat.pow_nonzero 2 k). lia. }
  rewrite new_ipa_spec in Harg by (done || lia). inversion Harg; subst arg; clear Harg.
  destruct (ipa_honest_body_iff k pp a b (dot a b) (gadd (msm a (bp_G pp)) (msm b (bp_H pp)))
    c' (gadd (msm a (bp_G pp)) (msm b (bp_H pp)))) as (LRs & al & be & Hp' & HL & Hv); [done..|].
  rewrite Hp in Hp'. inversion Hp'; subst p; clear Hp'.
  destruct (Hv Hnz) as (e & He & Hiff). cbn [with_claim ipp_LRs ipp_a ipp_b ipp_P]. unfold with_claim. cbn [ipp_LRs ipp_a ipp_b ipp_P ipp_C].
  rewrite He. destruct e as [|msg]; [exfalso|by exists msg].
  destruct Hiff as [Hiff _]. specialize (Hiff eq_refl). unfold ipa_com in Hiff. apply gadd_cancel_l in Hiff. rewrite <- gmul_mul in Hiff.
  apply Hc. unfold ipa_first_challenge in Hx. fold (inst_x pp) in Hx.
  assert (E0 : gmul (inst_x pp * (c' - dot a b)) (bp_U pp) = gzero).
  { transitivity (gadd (gmul (inst_x pp * c') (bp_U pp)) (gopp (gmul (dot a b * inst_x pp) (bp_U pp)))).
    - generalize (inst_x pp) (dot a b). intros z w. module.
    - rewrite Hiff. apply gadd_opp_r. }
  apply gmul_eq_0 in E0. destruct E0 as [E0|E0]; [|done].
  apply zmul_eq_0 in E0. destruct E0 as [E0|E0]; [done|]. by apply zsub_eq_0.
Qed.
Print Assumptions C13_claim_unique.
Print Assumptions C13_commitment_unique.
Print Assumptions C13_altered_claim_rejected.
Example C13_nonvacuous : exists pp arg p, bp_NewPublicParams (C:=toy) 2 = Ret pp /\
  NewInnerProdArgument pp [zr 1; zr 2] [zr 5; zr 6] = Ret arg /\ IPA_Prove arg = Ret p /\
  IPP_Verify p pp = Ret nil_error /\ exists msg, IPP_Verify (with_claim p (zr 18)) pp = Ret (Err msg).
Proof.
  destruct (C12_generated_params toy 2) as (pp & Hpp & HG & HH & _ & _ & HU).
  destruct (C12_ipa_complete toy pp 1 [zr 1; zr 2] [zr 5; zr 6]) as (arg & p & H1 & H2 & _ & _ & _ & H3); [done..|].
  assert (Hnz : Forall (fun x => x <> 0) (ipa_challenges pp p)).
  { unfold ipa_challenges. generalize (ipp_LRs p). clear.
    fix IH 1. intros [|L [|R t]]; cbn [chal]; [constructor..|]. constructor; [apply toy_challenge_neq_0|apply IH]. }
  exists pp, arg, p. repeat split; try done; [by apply H3|].
  apply (C13_altered_claim_rejected toy pp 1 [zr 1; zr 2] [zr 5; zr 6] arg p (zr 18)); try done.
  - apply toy_challenge_neq_0.
  - unfold RandGenVec in HU. cbn [seq fmap list_fmap] in HU. apply cons_inv in HU. destruct HU as [<- _]. apply toy_hash_to_g1_neq_0.
Qed.

(** ** C14 *)
(** The round challenge when L = R = 0. *)
Definition zero_challenge {C : Curve} (pp : bpPP C) : Zr :=
  fe (sha256 C (enc1 C gzero ++ enc1 C gzero ++ inst_digest pp)).
Lemma zr_pow (z : Z) n : zr z ^ n = zr (z ^ Z.of_nat n).
Proof.
  induction n as [|n IH]; [done|]. cbn [zpow]. rewrite IH, <- zr_mul. f_equal.
  rewrite Nat2Z.inj_succ, Z.pow_succ_r by lia. done.
Qed.
Lemma two_pow_neq_1 k : (1 <= k < 254)%nat -> zr 2 ^ k <> 1.
Proof.
  intros Hk E. rewrite zr_pow in E. change 1 with (zr 1) in E.
  assert (1 < 2 ^ Z.of_nat k)%Z by (apply Z.pow_gt_1; lia).
  assert (2 ^ Z.of_nat k <= 2 ^ 253)%Z by (apply Z.pow_le_mono_r; lia).
  assert (2 ^ 253 < r)%Z by reflexivity.
  apply zr_inj_small in E; lia.
Qed.
Lemma chal_zeros {C : Curve} D k : chal (C:=C) D (replicate (2 * k) gzero) = replicate k (round_x (C:=C) D gzero gzero).
Proof. induction k as [|k IH]; [done|]. replace (2 * S k)%nat with (S (S (2 * k))) by lia. cbn [replicate chal]. f_equal. exact IH. Qed.
Lemma lrsum_zeros {C : Curve} xs k : lrsum (C:=C) xs (replicate (2 * k) gzero) = gzero.
Proof.
  revert k. induction xs as [|x xs IH]; intros [|k]; [done..|].
  replace (2 * S k)%nat with (S (S (2 * k))) by lia. cbn [replicate lrsum]. rewrite IH, !gmul_O, !gadd_0_r. done.
Qed.

(** For every claim c ≠ 0 there is an accepted proof whose P commits to vectors with inner product
    2^k·c instead of c. *)
Theorem C14_ipa_forgery : forall (C : Curve) (pp : bpPP C) k c, (1 <= k <= 62)%nat ->
  length (bp_G pp) = (2 ^ k)%nat -> length (bp_H pp) = (2 ^ k)%nat ->
  zero_challenge pp <> 0 -> c <> 0 ->
  exists a b p, length a = (2 ^ k)%nat /\ length b = (2 ^ k)%nat /\
    ipp_P p = gadd (msm a (bp_G pp)) (msm b (bp_H pp)) /\ ipp_C p = c /\ length (ipp_LRs p) = (2 * k)%nat /\
    dot a b <> c /\ IPP_Verify p pp = Ret nil_error.
Proof.
  intros C pp k c Hk HG HH Hx Hc.
  set (x := zero_challenge pp) in *. set (xs := replicate k x).
  assert (Hxs : chal (inst_digest pp) (replicate (2 * k) (@gzero (G1 C))) = xs) by apply chal_zeros.
  assert (Hlen : length xs = k) by apply replicate_length.
  exists (vscale c (gco xs)), (hco xs).
  exists (MkIPP (replicate (2 * k) gzero) c 1 (gadd (msm (vscale c (gco xs)) (bp_G pp)) (msm (hco xs) (bp_H pp))) c).
  rewrite vscale_length, gco_length, hco_length, Hlen. cbn [ipp_P ipp_C ipp_LRs].
  rewrite replicate_length. repeat split; [| ].
  - rewrite dot_vscale_l, dot_gco_hco, Hlen by (apply Forall_replicate; done). intros E.
    apply (two_pow_neq_1 k); [lia|]. transitivity (zinv c * (c * zr 2 ^ k)).
    + generalize (zr 2 ^ k). intros z. field. done.
    + rewrite E. field. done.
  - destruct (ipp_verify_spec k pp (MkIPP (replicate (2 * k) gzero) c 1
      (gadd (msm (vscale c (gco xs)) (bp_G pp)) (msm (hco xs) (bp_H pp))) c)) as (e & He & Hiff);
      [done|done|cbn [ipp_LRs]; rewrite replicate_length; done|].
    rewrite He. f_equal. apply Hiff. cbn [ipp_LRs ipp_P ipp_C ipp_a ipp_b].
    rewrite take_ge by (rewrite replicate_length; done). rewrite Hxs, lrsum_zeros, msm_vscale.
    generalize (inst_x pp). intros z. module.
Qed.
Print Assumptions C14_ipa_forgery.
Example C14_nonvacuous : exists pp a b p, bp_NewPublicParams (C:=toy) 8 = Ret pp /\
  length a = 8%nat /\ length b = 8%nat /\
  ipp_P p = gadd (msm a (bp_G pp)) (msm b (bp_H pp)) /\ ipp_C p <> dot a b /\ IPP_Verify p pp = Ret nil_error.
Proof.
  destruct (C12_generated_params toy 8) as (pp & Hpp & HG & HH & _).
  destruct (C14_ipa_forgery toy pp 3 (zr 1)) as (a & b & p & Ha & Hb & HP & HC & _ & Hne & Hv);
    [lia|done|done|apply toy_challenge_neq_0|apply z1_neq_0|].
  exists pp, a, b, p. repeat split; try done. congruence.
Qed.

(** ** C15 *)
Definition with_LRs {C : Curve} (p : IPProof C) (LRs : list (G1 C)) : IPProof C :=
  MkIPP LRs (ipp_a p) (ipp_b p) (ipp_P p) (ipp_C p).
Theorem C15_too_few_panics : forall (C : Curve) (pp : bpPP C) k p,
  length (bp_G pp) = (2 ^ k)%nat -> length (bp_H pp) = (2 ^ k)%nat ->
  (length (ipp_LRs p) < 2 * k)%nat -> IPP_Verify p pp = Panic.
Proof. intros. by apply (ipp_verify_short k). Qed.
Theorem C15_enough_returns : forall (C : Curve) (pp : bpPP C) k p,
  length (bp_G pp) = (2 ^ k)%nat -> length (bp_H pp) = (2 ^ k)%nat ->
  (2 * k <= length (ipp_LRs p))%nat -> exists e, IPP_Verify p pp = Ret e.
Proof. intros C pp k p HG HH HL. destruct (ipp_verify_spec k pp p) as (e & He & _); [done..|]. by exists e. Qed.
Lemma ipa_verify_app {C : Curve} (pp : bpPP C) a b ext : forall k LRs P g h,
  length g = (2 ^ k)%nat -> length h = (2 ^ k)%nat -> (2 * k <= length LRs)%nat ->
  ipa_verify pp P g h (LRs ++ ext) a b = ipa_verify pp P g h LRs a b.
Proof.
  induction k as [|k IH]; intros LRs P g h Hg Hh HL.
  - destruct LRs as [|? LRs]; [destruct ext|]; cbn [ipa_verify app]; rewrite Hg; done.
  - destruct LRs as [|L [|R t]]; [cbn in HL; lia..|]. cbn [app ipa_verify]. rewrite Hg, pow2_ne1.
    rewrite next_spec by lia. cbn [rbind np_P np_g np_h].
    apply IH; [by apply foldg_length|by apply foldh_length|cbn in HL; lia].
Qed.
Theorem C15_extra_ignored : forall (C : Curve) (pp : bpPP C) k p ext,
  length (bp_G pp) = (2 ^ k)%nat -> length (bp_H pp) = (2 ^ k)%nat ->
  (2 * k <= length (ipp_LRs p))%nat ->
  IPP_Verify (with_LRs p (ipp_LRs p ++ ext)) pp = IPP_Verify p pp.
Proof.
  intros C pp k p ext HG HH HL. unfold IPP_Verify. rewrite !instance_spec by (right; lia). cbn [rbind with_LRs ipp_LRs ipp_a ipp_b ipp_P ipp_C].
  apply (ipa_verify_app (inst_pp pp) _ _ ext k); done.
Qed.
Print Assumptions C15_too_few_panics.
Print Assumptions C15_enough_returns.
Print Assumptions C15_extra_ignored.
Example C15_nonvacuous : exists pp, bp_NewPublicParams (C:=toy) 4 = Ret pp /\
  forall a b P c, IPP_Verify (MkIPP [gzero; gzero; gzero] a b P c) pp = Panic /\
  (exists e, IPP_Verify (MkIPP [gzero; gzero; gzero; gzero] a b P c) pp = Ret e) /\
  IPP_Verify (MkIPP [gzero; gzero; gzero; gzero; gzero] a b P c) pp = IPP_Verify (MkIPP [gzero; gzero; gzero; gzero] a b P c) pp.
Proof.
  destruct (C12_generated_params toy 4) as (pp & Hpp & HG & HH & _). exists pp. split; [done|]. intros a b P c.
  split; [apply (C15_too_few_panics toy pp 2); try done; cbn; lia|].
  split; [apply (C15_enough_returns toy pp 2); try done; cbn; lia|].
  apply (C15_extra_ignored toy pp 2 (MkIPP [gzero; gzero; gzero; gzero] a b P c) [gzero]); try done; cbn; lia.
Qed.

(** ** C16 *)
(** One round, three challenges: explicit openings of P, L and R (any Zr-module). *)
Theorem C16_round_extraction : forall (M : Grp) (U : M) (g h : list M) n (L R P : M) (x1 x2 x3 : Zr) a1 a2 a3 b1 b2 b3 c1 c2 c3,
  length g = (n + n)%nat -> length h = (n + n)%nat ->
  Forall (fun v => length v = n) [a1; a2; a3; b1; b2; b3] ->
  x1 <> 0 -> x2 <> 0 -> x3 <> 0 -> NoDup [x1 * x1; x2 * x2; x3 * x3] ->
  let folded x := gadd (gadd (gmul (x * x) L) P) (gmul (zinv (x * x)) R) in
  let opened x a b c := opening U (fold2 (zinv x) x n g) (fold2 x (zinv x) n h) a b c in
  folded x1 = opened x1 a1 b1 c1 -> folded x2 = opened x2 a2 b2 c2 -> folded x3 = opened x3 a3 b3 c3 ->
  let unfold_a x a := vscale (zinv x) a ++ vscale x a in
  let unfold_b x b := vscale x b ++ vscale (zinv x) b in
  let combined co := opening U g h
    (comb3v co (x1 * x1) (x2 * x2) (x3 * x3) (unfold_a x1 a1) (unfold_a x2 a2) (unfold_a x3 a3))
    (comb3v co (x1 * x1) (x2 * x2) (x3 * x3) (unfold_b x1 b1) (unfold_b x2 b2) (unfold_b x3 b3))
    (comb3z co (x1 * x1) (x2 * x2) (x3 * x3) c1 c2 c3) in
  P = combined coP /\ L = combined coL /\ R = combined coR.
Proof.
  intros M U g h n L R P x1 x2 x3 a1 a2 a3 b1 b2 b3 c1 c2 c3 Hg Hh Hl H1 H2 H3 Hd folded opened E1 E2 E3 ua ub combined.
  rewrite !Forall_cons in Hl. destruct Hl as (La1 & La2 & La3 & Lb1 & Lb2 & Lb3 & _).
  rewrite !NoDup_cons, !elem_of_cons in Hd. destruct Hd as (D1 & D2 & _).
  destruct (quad_extract (x1 * x1) (x2 * x2) (x3 * x3) L P R) as (EL & EP & ER);
    [apply zmul_neq_0; done..|intros E; apply D1; tauto|intros E; apply D1; tauto|intros E; apply D2; tauto|].
  cbv zeta in EL, EP, ER. fold (folded x1) (folded x2) (folded x3) in EL, EP, ER.
  rewrite E1, E2, E3 in EL, EP, ER. unfold opened in EL, EP, ER. rewrite !opening_fold in EL, EP, ER by done.
  rewrite comb3_opening in EL, EP, ER by (rewrite !app_length, !vscale_length; lia).
  unfold combined, ua, ub. rewrite EL, EP, ER. done.
Qed.

(** All rounds.  A tree of transcripts: every inner node has one (L,R) and four challenges. *)
Inductive tree (M : Grp) : Type :=
  | Leaf (a b : Zr)
  | Node (L R : M) (x1 : Zr) (t1 : tree M) (x2 : Zr) (t2 : tree M) (x3 : Zr) (t3 : tree M) (x4 : Zr) (t4 : tree M).
Arguments Leaf {M}. Arguments Node {M}.
(** Every root-to-leaf path is a run the verifier accepts. *)
Fixpoint tree_accepts {M : Grp} (k : nat) (U : M) (g h : list M) (P : M) (t : tree M) : Prop :=
  match k, t with
  | O, Leaf a b => P = opening U g h [a] [b] (a * b)
  | S k, Node L R x1 t1 x2 t2 x3 t3 x4 t4 =>
    let n := (2 ^ k)%nat in
    let sub x t := x <> 0 /\
      tree_accepts k U (fold2 (zinv x) x n g) (fold2 x (zinv x) n h)
        (gadd (gadd (gmul (x * x) L) P) (gmul (zinv (x * x)) R)) t in
    NoDup [x1 * x1; x2 * x2; x3 * x3; x4 * x4] /\ sub x1 t1 /\ sub x2 t2 /\ sub x3 t3 /\ sub x4 t4
  | _, _ => False
  end.
Theorem C16_special_soundness : forall (M : Grp) k (U : M) g h P t,
  length g = (2 ^ k)%nat -> length h = (2 ^ k)%nat -> indep U g h -> tree_accepts k U g h P t ->
  exists a b, length a = (2 ^ k)%nat /\ length b = (2 ^ k)%nat /\ P = opening U g h a b (dot a b).
Proof.
  intros M. induction k as [|k IH]; intros U g h P t Hg Hh Hi Ht.
  - destruct t as [a b|]; [|done]. exists [a], [b]. split; [done|]. split; [done|]. rewrite Ht. f_equal. cbn. ring.
  - destruct t as [|L R x1 t1 x2 t2 x3 t3 x4 t4]; [done|]. cbn [tree_accepts] in Ht.
    set (n := (2 ^ k)%nat) in *. assert (H2 : (2 ^ S k = n + n)%nat) by (unfold n; cbn; lia). rewrite H2 in *.
    destruct Ht as (Hd & (Hx1 & T1) & (Hx2 & T2) & (Hx3 & T3) & (Hx4 & T4)).
    apply IH in T1; [|apply fold2_length; done..|apply indep_fold; done].
    apply IH in T2; [|apply fold2_length; done..|apply indep_fold; done].
    apply IH in T3; [|apply fold2_length; done..|apply indep_fold; done].
    apply IH in T4; [|apply fold2_length; done..|apply indep_fold; done].
    destruct T1 as (a1 & b1 & La1 & Lb1 & E1). destruct T2 as (a2 & b2 & La2 & Lb2 & E2).
    destruct T3 as (a3 & b3 & La3 & Lb3 & E3). destruct T4 as (a4 & b4 & La4 & Lb4 & E4).
    apply (round_knowledge U g h n L R P (fun i => nth i [x1; x2; x3; x4] 0) (fun i => nth i [a1; a2; a3; a4] []) (fun i => nth i [b1; b2; b3; b4] []));
      try done; intros i Hi4; destruct i as [|[|[|[|i]]]]; cbn [nth]; try done; lia.
Qed.
(** Both protocols together: two different first challenges for the same statement (P, c) prove c. *)
Theorem C16_two_first_challenges : forall (M : Grp) k (U : M) g h P c x x' t t',
  length g = (2 ^ k)%nat -> length h = (2 ^ k)%nat -> indep U g h -> x <> x' -> x <> 0 -> x' <> 0 ->
  tree_accepts k (gmul x U) g h (gadd P (gmul (x * c) U)) t ->
  tree_accepts k (gmul x' U) g h (gadd P (gmul (x' * c) U)) t' ->
  exists a b, length a = (2 ^ k)%nat /\ length b = (2 ^ k)%nat /\ P = gadd (msm a g) (msm b h) /\ c = dot a b.
Proof.
  intros M k U g h P c x x' t t' Hg Hh Hi Hxx Hx Hx' T T'.
  assert (Hind : forall y, y <> 0 -> indep (gmul y U) g h).
  { intros y Hy a b d Ha Hb E. unfold opening in E. rewrite <- gmul_mul in E.
    destruct (Hi a b (d * y) Ha Hb E) as (E1 & E2 & E3). repeat split; [done|done|].
    apply zmul_eq_0 in E3. destruct E3; done. }
  apply C16_special_soundness in T, T'; auto.
  destruct T as (a & b & La & Lb & E). destruct T' as (a' & b' & La' & Lb' & E').
  assert (EP : P = opening U g h a b (x * (dot a b - c))).
  { unfold opening in *. rewrite <- gmul_mul in E. apply (f_equal (fun T => gadd T (gopp (gmul (x * c) U)))) in E.
    transitivity (gadd (gadd P (gmul (x * c) U)) (gopp (gmul (x * c) U))); [module|]. rewrite E.
    generalize (dot a b). intros z. module. }
  assert (EP' : P = opening U g h a' b' (x' * (dot a' b' - c))).
  { unfold opening in *. rewrite <- gmul_mul in E'. apply (f_equal (fun T => gadd T (gopp (gmul (x' * c) U)))) in E'.
    transitivity (gadd (gadd P (gmul (x' * c) U)) (gopp (gmul (x' * c) U))); [module|]. rewrite E'.
    generalize (dot a' b'). intros z. module. }
  destruct (opening_inj U g h a b (x * (dot a b - c)) a' b' (x' * (dot a' b' - c)) Hi) as (-> & -> & Ec); [lia..|congruence|].
  assert (Ez : (x - x') * (dot a' b' - c) = 0).
  { transitivity (x * (dot a' b' - c) - x' * (dot a' b' - c)); [ring|]. rewrite Ec. ring. }
  apply zmul_eq_0 in Ez. destruct Ez as [Ez|Ez]; [apply zsub_eq_0 in Ez; done|]. apply zsub_eq_0 in Ez.
  exists a', b'. repeat split; try done. rewrite EP'. unfold opening. rewrite Ez.
  replace (x' * (c - c)) with 0 by ring. rewrite gmul_0, gadd_0_r. done.
Qed.
(** The paths of such trees are the runs of the code's verifier: it accepts exactly when folding with
    the hash challenges ends in an opening. *)
Fixpoint run_accepts {M : Grp} (xs : list Zr) (U : M) (g h : list M) (P : M) (LRs : list M) (a b : Zr) : Prop :=
  match xs, LRs with
  | [], _ => P = opening U g h [a] [b] (a * b)
  | x :: xs, L :: R :: LRs =>
    let n := (2 ^ length xs)%nat in
    run_accepts xs U (fold2 (zinv x) x n g) (fold2 x (zinv x) n h)
      (gadd (gadd (gmul (x * x) L) P) (gmul (zinv (x * x)) R)) LRs a b
  | _, _ => False
  end.
Theorem C16_verifier_runs : forall (C : Curve) (pp : bpPP C) k p,
  length (bp_G pp) = (2 ^ k)%nat -> length (bp_H pp) = (2 ^ k)%nat -> length (ipp_LRs p) = (2 * k)%nat ->
  let x := ipa_first_challenge pp in
  IPP_Verify p pp = Ret nil_error <->
  run_accepts (ipa_challenges pp p) (gmul x (bp_U pp)) (bp_G pp) (bp_H pp)
    (gadd (ipp_P p) (gmul (x * ipp_C p) (bp_U pp))) (ipp_LRs p) (ipp_a p) (ipp_b p).
Proof.
  intros C pp k p HG HH HL x. unfold IPP_Verify. rewrite instance_spec by (right; lia). cbn [rbind].
  unfold ipa_challenges. change x with (inst_x pp). clear x.
  change (bp_G pp) with (bp_G (inst_pp pp)) in HG. change (bp_H pp) with (bp_H (inst_pp pp)) in HH.
  change (bp_G pp) with (bp_G (inst_pp pp)). change (bp_H pp) with (bp_H (inst_pp pp)).
  change (inst_digest pp) with (bp_Digest (inst_pp pp)). change (gmul (inst_x pp) (bp_U pp)) with (bp_U (inst_pp pp)).
  generalize (gadd (ipp_P p) (gmul (inst_x pp * ipp_C p) (bp_U pp))). intros P.
  generalize dependent (inst_pp pp). intros q. generalize dependent (ipp_LRs p). generalize (ipp_a p) (ipp_b p). intros a b.
  generalize (bp_G q) (bp_H q). intros g h LRs. revert LRs g h P.
  induction k as [|k IH]; intros LRs g h P HL HG HH.
  - destruct LRs; [|cbn in HL; lia]. destruct g as [|g0 [|]]; try (cbn in HG; lia). destruct h as [|h0 [|]]; try (cbn in HH; lia).
    cbn [ipa_verify chal run_accepts length]. cbn [Nat.eqb idx rbind lookup list_lookup]. unfold opening. cbn [msm].
    assert (E : gadd (gadd (gadd (gmul a g0) gzero) (gadd (gmul b h0) gzero)) (gmul (a * b) (bp_U q)) =
      gadd (gadd (gmul (a * b) (bp_U q)) (gmul a g0)) (gmul b h0)) by module.
    rewrite E. destruct (geqb _ P) eqn:Eq; [apply geqb_eq in Eq|apply geqb_neq in Eq]; split; intros H; try done; congruence.
  - destruct LRs as [|L [|R t]]; [cbn in HL; lia..|]. cbn [ipa_verify chal run_accepts]. rewrite HG, pow2_ne1, next_spec by lia.
    cbn [rbind np_P np_g np_h]. set (x := round_x _ L R).
    rewrite (IH t) by (try (by apply foldg_length); try (by apply foldh_length); cbn in HL; lia).
    rewrite (chal_length _ t k) by (cbn in HL; lia).
    unfold foldg, foldh, fold2. rewrite HG, HH, half_pow2. done.
Qed.
Print Assumptions C16_round_extraction.
Print Assumptions C16_special_soundness.
Print Assumptions C16_two_first_challenges.
Print Assumptions C16_verifier_runs.

(** A free module with independent generators, and an accepted tree in it. *)
Program Definition prodG (M N : Grp) : Grp := {|
  gcar := M * N; gzero := (gzero, gzero); gadd p q := (gadd p.1 q.1, gadd p.2 q.2); gopp p := (gopp p.1, gopp p.2);
  gmul x p := (gmul x p.1, gmul x p.2); geqb p q := geqb p.1 q.1 && geqb p.2 q.2 |}.
Next Obligation. intros; cbn; f_equal; apply gadd_comm. Qed.
Next Obligation. intros; cbn; f_equal; apply gadd_assoc. Qed.
Next Obligation. intros M N [P Q]; cbn; f_equal; apply gadd_0_l. Qed.
Next Obligation. intros; cbn; f_equal; apply gadd_opp_r. Qed.
Next Obligation. intros; cbn; f_equal; apply gmul_add_l. Qed.
Next Obligation. intros; cbn; f_equal; apply gmul_add_r. Qed.
Next Obligation. intros; cbn; f_equal; apply gmul_mul. Qed.
Next Obligation. intros M N [P Q]; cbn; f_equal; apply gmul_1. Qed.
Next Obligation.
  intros M N [P Q] [P' Q']; cbn. rewrite andb_true_iff, !geqb_eq. split; [intros [-> ->]; done|]. intros E; inversion E; done.
Qed.
Definition free5 : Grp := prodG (prodG (prodG toyG toyG) (prodG toyG toyG)) toyG.
Definition e5 (a b c d e : Zr) : free5 := (((a, b), (c, d)), e).
Lemma free5_indep : indep (e5 0 0 0 0 1) [e5 1 0 0 0 0; e5 0 1 0 0 0] [e5 0 0 1 0 0; e5 0 0 0 1 0].
Proof.
  intros [|a1 [|a2 [|]]] [|b1 [|b2 [|]]] c Ha Hb E; try (cbn in Ha, Hb; lia).
  unfold opening in E. cbn in E. apply (f_equal (fun p : free5 => (p.1.1.1, p.1.1.2, p.1.2.1, p.1.2.2, p.2))) in E. cbn in E.
  assert (E0 : (a1, a2, b1, b2, c) = (0, 0, 0, 0, 0)). { rewrite <- E. repeat f_equal; ring. }
  inversion E0. done.
Qed.
Lemma honest_round {M : Grp} (U g1 g2 h1 h2 : M) a1 a2 b1 b2 x : x <> 0 ->
  gadd (gadd (gmul (x * x) (gadd (gadd (gmul a1 g2) (gmul b2 h1)) (gmul (a1 * b2) U)))
    (opening U [g1; g2] [h1; h2] [a1; a2] [b1; b2] (dot [a1; a2] [b1; b2])))
    (gmul (zinv (x * x)) (gadd (gadd (gmul a2 g1) (gmul b1 h2)) (gmul (a2 * b1) U))) =
  opening U (fold2 (zinv x) x 1 [g1; g2]) (fold2 x (zinv x) 1 [h1; h2]) [x * a1 + zinv x * a2] [zinv x * b1 + x * b2]
    ((x * a1 + zinv x * a2) * (zinv x * b1 + x * b2)).
Proof.
  intros Hx. unfold opening, fold2. cbn [take drop gvscale gvadd fmap list_fmap zip_with msm dot].
  module_pre; field; done.
Qed.
Example C16_nonvacuous : exists (M : Grp) (U : M) g h P t, length g = (2 ^ 1)%nat /\ length h = (2 ^ 1)%nat /\
  indep U g h /\ tree_accepts 1 U g h P t.
Proof.
  pose (g1 := e5 1 0 0 0 0). pose (g2 := e5 0 1 0 0 0). pose (h1 := e5 0 0 1 0 0). pose (h2 := e5 0 0 0 1 0). pose (U := e5 0 0 0 0 1).
  pose (leaf := fun x => @Leaf free5 (x * zr 5 + zinv x * zr 6) (zinv x * zr 7 + x * zr 8)).
  exists free5, U, [g1; g2], [h1; h2], (opening U [g1; g2] [h1; h2] [zr 5; zr 6] [zr 7; zr 8] (dot [zr 5; zr 6] [zr 7; zr 8])).
  exists (Node (gadd (gadd (gmul (zr 5) g2) (gmul (zr 8) h1)) (gmul (zr 5 * zr 8) U))
               (gadd (gadd (gmul (zr 6) g1) (gmul (zr 7) h2)) (gmul (zr 6 * zr 7) U))
    (zr 1) (leaf (zr 1)) (zr 2) (leaf (zr 2)) (zr 3) (leaf (zr 3)) (zr 4) (leaf (zr 4))).
  split; [done|]. split; [done|]. split; [apply free5_indep|].
  assert (Hneq : forall a b, (0 <= a < 100)%Z -> (0 <= b < 100)%Z -> a <> b -> zr a <> zr b).
  { intros a b Ha Hb Hab E. apply zr_inj_small in E; assert (100 < r)%Z by reflexivity; lia. }
  assert (Hnz : forall a, (0 < a < 100)%Z -> zr a <> 0) by (intros; apply Hneq; lia).
  cbn [tree_accepts leaf]. split.
  - rewrite <- !zr_mul. rewrite !NoDup_cons, !elem_of_cons.
    repeat split; try apply NoDup_nil_2; intros E; repeat match type of E with _ \/ _ => destruct E as [E|E] end; try (by apply elem_of_nil in E); match type of E with zr ?a = zr ?b => refine (Hneq a b _ _ _ E); lia end.
  - split_and!; try (apply Hnz; lia).
    + apply (honest_round U g1 g2 h1 h2 (zr 5) (zr 6) (zr 7) (zr 8) (zr 1)); apply Hnz; lia.
    + apply (honest_round U g1 g2 h1 h2 (zr 5) (zr 6) (zr 7) (zr 8) (zr 2)); apply Hnz; lia.
    + apply (honest_round U g1 g2 h1 h2 (zr 5) (zr 6) (zr 7) (zr 8) (zr 3)); apply Hnz; lia.
    + apply (honest_round U g1 g2 h1 h2 (zr 5) (zr 6) (zr 7) (zr 8) (zr 4)); apply Hnz; lia.
Qed.
