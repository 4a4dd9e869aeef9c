(** Properties C21, C22, C64: package bp, range proof (bp/range.go).  C23 is in Prop_pol.v. *)
From Verif Require Import Range_prover Toy.
Local Open Scope Zr_scope.

(** Parameters for n = 2^k values, e.g. those of NewRangeProofPublicParams(2^k): [rp_wf] (Range_run).
    [coins_ok n co]: the prover's random vectors have the lengths the code draws.
    [range_challenges]: the challenge y0 and the challenges of the two inner arguments, as recomputed
    by the verifier from the proof. *)
Definition params_for {C : Curve} (k : nat) (pp : RPPP C) : Prop :=
  (1 <= k < 16)%nat /\ length (rp_Gs pp) = (2 ^ k)%nat /\
  length (rp_Hs pp) = (2 ^ k * 64)%nat /\ length (rp_Fs pp) = (2 ^ k * 64)%nat.
Lemma params_for_wf {C : Curve} k (pp : RPPP C) : params_for k pp -> rp_wf k pp.
Proof. unfold params_for, rp_wf, rp_m. intros (H1 & H2 & H3 & H4). split_and!; try done; lia. Qed.
Definition in_range (x : Zr) : Prop := (zv x < 2 ^ 63)%Z.

(** ** C21 *)
Theorem C21_range_complete : forall (C : Curve) (pp : RPPP C) k v r co,
  params_for k pp -> coins_ok (2 ^ k) co -> length v = (2 ^ k)%nat -> Forall in_range v ->
  let V := gadd (gmul r (rp_F pp)) (msm v (rp_Gs pp)) in
  exists rp, (exists ipaPP, ProveRange_unchecked pp V v r co = Ret (rp, ipaPP)) /\
    (Forall (fun x => x <> 0) (range_challenges pp rp V) ->
     ProveRange pp V v r co = Ret rp /\ VerifyRange pp rp V = Ret nil_error).
Proof.
  intros C pp k v r co Hpp Hco Hv Hr V. apply params_for_wf in Hpp.
  destruct (prove_range_spec k pp V v r co Hpp Hco Hv Hr eq_refl) as (rp & Hrun & _ & _ & H).
  exists rp. split; [by eexists|]. intros Hnz. destruct (H Hnz) as [H1 H2]. split; [|exact H2].
  unfold ProveRange. rewrite Hrun. cbn [rbind]. rewrite H1. done.
Qed.
(** A returned proof is accepted even when a challenge of the inner-product argument is 0: ProveRange checks that part itself. *)
Theorem C21_returned_verifies : forall (C : Curve) (pp : RPPP C) k v r co rp,
  params_for k pp -> coins_ok (2 ^ k) co -> length v = (2 ^ k)%nat -> Forall in_range v ->
  let V := gadd (gmul r (rp_F pp)) (msm v (rp_Gs pp)) in
  ProveRange pp V v r co = Ret rp ->
  rv_y0 pp rp V <> 0 -> Forall (fun x => x <> 0) (ir_chal (bp_Digest (rg_rdx pp)) (rv_U pp rp V) (rp_Δ rp)) ->
  VerifyRange pp rp V = Ret nil_error.
Proof.
  intros C pp k v r co rp Hpp Hco Hv Hr V Hp Hy Hx. apply params_for_wf in Hpp.
  destruct (prove_range_checked k pp V v r co Hpp Hco Hv Hr eq_refl) as (rp' & Hrun & _ & _ & _ & H).
  unfold ProveRange in Hp. rewrite Hrun in Hp. cbn [rbind] in Hp. apply rbind_inv in Hp. destruct Hp as ([|e] & He & Hp); [|done].
  assert (rp' = rp) by congruence. subst rp'. apply H; done.
Qed.
Theorem C21_generated_params : forall (C : Curve) k, (1 <= k < 16)%nat ->
  exists pp : RPPP C, NewRangeProofPublicParams (2 ^ k) = Ret pp /\ params_for k pp /\ rp_digest pp = rp_fresh_digest pp.
Proof.
  intros C k Hk. unfold NewRangeProofPublicParams. cbn [RandGenVec seq fmap list_fmap idx rbind lookup list_lookup].
  eexists. split; [reflexivity|]. split; [|done]. unfold params_for. cbn [rp_Gs rp_Hs rp_Fs]. rewrite !rand_gen_vec_length. unfold rp_m. split_and!; lia.
Qed.
Print Assumptions C21_range_complete.
Print Assumptions C21_returned_verifies.
Print Assumptions C21_generated_params.
Definition toy_coins (n : nat) : RangeCoins := MkCoins (replicate n (zr 3)) (zr 4) (zr 5) (zr 6)
  (replicate (n * rp_m + n) (zr 7)) (replicate (n * rp_m) (zr 8)) (zr 9) (zr 10).
Lemma toy_coins_ok n : coins_ok n (toy_coins n).
Proof. unfold coins_ok, toy_coins. cbn [co_w co_s co_t]. rewrite !replicate_length. done. Qed.
Lemma toy_range_challenges pp rp V : Forall (fun x => x <> 0) (range_challenges (C:=toy) pp rp V).
Proof.
  unfold range_challenges. apply Forall_cons. split; [apply toy_challenge_neq_0|]. apply Forall_app. split.
  - generalize (rv_U pp rp V) (rp_Δ rp). intros U Δ. revert U.
    induction Δ as [|[[A B] V'] Δ IH]; intros U; cbn [ir_chal]; constructor; [apply toy_challenge_neq_0|apply IH].
  - generalize (ipp_LRs (rp_Π rp)). generalize (inst_digest (rg_ipa pp (rv_y0 pp rp V))). intros D.
    fix IH 1. intros [|L [|R t]]; cbn [chal]; [constructor..|]. constructor; [apply toy_challenge_neq_0|apply IH].
Qed.
Lemma small_in_range z : (0 <= z < 2 ^ 63)%Z -> in_range (zr z).
Proof.
  intros H. unfold in_range. rewrite zv_zr. assert (2 ^ 63 < r)%Z by reflexivity. rewrite Z.mod_small by lia. lia.
Qed.
Example C21_nonvacuous : exists pp V rp, NewRangeProofPublicParams (C:=toy) 2 = Ret pp /\
  ProveRange pp V [zr 5; zr (2 ^ 63 - 1)] (zr 11) (toy_coins 2) = Ret rp /\ VerifyRange pp rp V = Ret nil_error.
Proof.
  destruct (C21_generated_params toy 1) as (pp & Hpp & Hwf & _); [lia|].
  destruct (C21_range_complete toy pp 1 [zr 5; zr (2 ^ 63 - 1)] (zr 11) (toy_coins 2)) as (rp & _ & H);
    [done|apply toy_coins_ok|done|repeat constructor; apply small_in_range; lia|].
  eexists pp, _, rp. split; [exact Hpp|]. apply H. apply toy_range_challenges.
Qed.
Example C21_returned_nonvacuous : exists (pp : RPPP toy) rp, params_for 1 pp /\
  let V := gadd (gmul (zr 11) (rp_F pp)) (msm [zr 5; zr (2 ^ 63 - 1)] (rp_Gs pp)) in
  ProveRange pp V [zr 5; zr (2 ^ 63 - 1)] (zr 11) (toy_coins 2) = Ret rp /\ rv_y0 pp rp V <> 0 /\
  Forall (fun x => x <> 0) (ir_chal (bp_Digest (rg_rdx pp)) (rv_U pp rp V) (rp_Δ rp)).
Proof.
  destruct (C21_generated_params toy 1) as (pp & Hpp & Hwf & _); [lia|].
  destruct (C21_range_complete toy pp 1 [zr 5; zr (2 ^ 63 - 1)] (zr 11) (toy_coins 2)) as (rp & _ & H);
    [done|apply toy_coins_ok|done|repeat constructor; apply small_in_range; lia|].
  exists pp, rp. split; [exact Hwf|]. cbv zeta in H |- *. split; [apply H, toy_range_challenges|].
  pose proof (toy_range_challenges pp rp (gadd (gmul (zr 11) (rp_F pp)) (msm [zr 5; zr (2 ^ 63 - 1)] (rp_Gs pp)))) as Hc.
  unfold range_challenges in Hc. apply Forall_cons in Hc. destruct Hc as [Hc1 Hc]. apply Forall_app in Hc. split; [exact Hc1|apply Hc].
Qed.

(** ** C22 *)
Lemma vec_bits_len v m : exists l, Vec_Bits v m = Ret l /\ (length v * m <= length l)%nat /\
  (length l = (length v * m)%nat -> Forall (fun x => zv x < 2 ^ Z.of_nat m)%Z v).
Proof.
  induction v as [|x v IH].
  - exists []. cbn. split; [done|]. split; [lia|constructor].
  - destruct IH as (l & Hl & HL & Hs). cbn [Vec_Bits]. destruct (decide (zv x < 2 ^ Z.of_nat m)%Z) as [Hx|Hx].
    + destruct (Bits_small x m Hx) as (b & Hb & _ & _ & HbL). rewrite Hb, Hl. cbn [rbind]. exists (b ++ l). split; [done|].
      rewrite app_length. cbn [length]. rewrite Nat.mul_succ_l. split; [lia|]. intros E. constructor; [done|]. apply Hs. lia.
    + destruct (Bits_large x m ltac:(lia)) as (b & Hb & HbL). rewrite Hb, Hl. cbn [rbind]. exists (b ++ l). split; [done|].
      rewrite app_length. cbn [length]. rewrite Nat.mul_succ_l. split; [lia|]. intros E. lia.
Qed.
(** Whatever the commitment V, the blinding factor and the randomness: if a value is out of range or the
    number of values is wrong, no proof is returned. *)
Theorem C22_out_of_range_panics : forall (C : Curve) (pp : RPPP C) k V v r co,
  params_for k pp -> coins_ok (2 ^ k) co -> ~ (length v = (2 ^ k)%nat /\ Forall in_range v) ->
  ProveRange pp V v r co = Panic.
Proof.
  intros C pp k V v r co Hpp (Lw & Ls & Lt) Hbad. apply params_for_wf in Hpp. destruct Hpp as (Hk & HG & HH & HF).
  pose proof (Nat.pow_nonzero 2 k ltac:(lia)) as Hn0.
  unfold ProveRange, ProveRange_unchecked. rewrite HG.
  set (n := (2 ^ k)%nat) in *. set (nm := (n * rp_m)%nat) in *. assert (Hnm : (0 < nm)%nat) by (unfold nm, rp_m; lia).
  rewrite (mulv_sum (rp_Gs pp)) by (first [lia|apply nonempty_len; lia]). cbn [rbind].
  destruct (vec_bits_len v rp_m) as (l & Hl & HL & Hs). rewrite Hl. cbn [rbind]. unfold IntsToZr. set (vB := (zr <$> l) ++ co_w co).
  assert (LvB : length vB = (length l + n)%nat) by (unfold vB; rewrite app_length, fmap_length; lia).
  destruct (decide (nm <= length vB)%nat) as [Hle|Hle].
  2:{ unfold slice_to. rewrite (proj2 (Nat.leb_gt _ _)) by lia. done. }
  rewrite slice_to_spec by lia. cbn [rbind]. rewrite ones_expand, vec_sub_spec by (rewrite ones_length, take_length; lia). cbn [rbind].
  set (wC := vsub _ _). assert (LwC : length wC = nm) by (unfold wC; rewrite vsub_length; rewrite ones_length; rewrite ?take_length; lia).
  destruct (decide (length l = nm)) as [El|El].
  2:{ unfold G1v_MulV at 1. rewrite (proj2 (Nat.eqb_neq _ _)) by lia. done. }
  rewrite (mulv_sum (rp_Hs pp)) by (first [lia|apply nonempty_len; lia]). cbn [rbind].
  rewrite slice_to_spec by lia. cbn [rbind].
  rewrite (mulv_sum (take nm (rp_Fs pp)) wC) by (first [rewrite take_length; lia|apply nonempty_len; rewrite take_length; lia]). cbn [rbind].
  rewrite rangeProofRO1_spec. cbn [rbind]. rewrite ppRdx_spec. cbn [rbind]. rewrite vec_mul_spec.
  assert (Hv : length v <> n).
  { intros E. apply Hbad. split; [done|]. apply Hs. rewrite El, E. done. }
  unfold Vec_Add at 1. rewrite (proj2 (Nat.eqb_neq _ _)) by (rewrite vscale_length; lia). done.
Qed.
Print Assumptions C22_out_of_range_panics.
Example C22_nonvacuous : exists pp, NewRangeProofPublicParams (C:=toy) 2 = Ret pp /\
  ProveRange pp (zr 1) [zr 5; zr (2 ^ 63)] (zr 11) (toy_coins 2) = Panic.
Proof.
  destruct (C21_generated_params toy 1) as (pp & Hpp & Hwf & _); [lia|]. exists pp. split; [exact Hpp|].
  apply (C22_out_of_range_panics toy pp 1); [done|apply toy_coins_ok|]. intros [_ H]. apply Forall_cons in H. destruct H as [_ H].
  apply Forall_cons in H. destruct H as [H _]. unfold in_range in H. rewrite zv_zr in H. assert (2 ^ 63 < r)%Z by reflexivity. rewrite Z.mod_small in H by lia. lia.
Qed.

(** ** C64 *)
(** Lines 136-137 write into the proof.  The verdict on the proof left behind is the same, and the second
    verification leaves it unchanged; the P and C fields sent along are never looked at. *)
Theorem C64_reverification : forall (C : Curve) (pp : RPPP C) k rp V rp' e,
  params_for k pp -> VerifyRange_st pp rp V = Ret (rp', e) ->
  VerifyRange_st pp rp' V = Ret (rp', e).
Proof.
  intros C pp k rp V rp' e Hpp H. apply params_for_wf in Hpp.
  destruct (decide (k <= length (rp_Δ rp))%nat) as [HΔ|HΔ].
  - pose proof H as H0. rewrite (verify_range_st_spec k) in H by done.
    destruct (IterativeVerify _ _ _ _) as [[p|err]| |] eqn:EI; cbn [rbind] in H; [| |done..].
    2:{ inversion H; subst. exact H0. }
    clear H0.
    assert (Erp : rp' = rp_with_Π rp (rv_Π k pp rp V)).
    { destruct (IPP_Verify _ _) as [[|err]| |]; cbn [rbind] in H; [|inversion H; done|done..].
      cbv zeta in H. destruct (geqb _ _); inversion H; done. }
    rewrite (verify_range_st_spec k); [|done|subst rp'; exact HΔ].
    subst rp'. set (rp1 := rp_with_Π rp (rv_Π k pp rp V)) in *.
    change (IterativeVerify (rg_rdx pp) (rv_U pp rp1 V) (rp_Δ rp1) (rp_u rp1)) with (IterativeVerify (rg_rdx pp) (rv_U pp rp V) (rp_Δ rp) (rp_u rp)).
    rewrite EI. cbn [rbind].
    change (rv_Π k pp rp1 V) with (rv_Π k pp rp V). change (rv_y0 pp rp1 V) with (rv_y0 pp rp V).
    change (rp_with_Π rp1 (rv_Π k pp rp V)) with rp1.
    change (rv_z pp rp1 V) with (rv_z pp rp V). change (rv_c0 k pp rp1 V) with (rv_c0 k pp rp V).
    change (rp_C1 rp1) with (rp_C1 rp). change (rp_C2 rp1) with (rp_C2 rp). change (rp_c rp1) with (rp_c rp). change (rp_τ rp1) with (rp_τ rp).
    exact H.
  - (* too few triples: the proof is not touched *)
    assert (rp' = rp); [|subst; exact H]. destruct Hpp as (Hk & HG & HH & HF).
    unfold VerifyRange_st in H. rewrite rangeProofRO1_spec, ppRdx_spec in H. cbn [rbind] in H.
    unfold IterativeVerify in H. rewrite (ir_pow2_len _ k) in H by done. cbn [rbind rg_rdx bp_G] in H. rewrite HG in H.
    destruct k as [|k]; [lia|]. rewrite half_half_pow in H.
    match type of H with context [iv_loop ?q ?D (2 ^ k)%nat ?G ?V0 [] None ?u] =>
      destruct (iv_loop_short k q D G V0 [] None u) as [E|[msg E]]; [done|lia|rewrite E in H..] end; [done|].
    cbn [rbind] in H. inversion H. done.
Qed.
Theorem C64_inner_claims_ignored : forall (C : Curve) (pp : RPPP C) k rp V P c,
  params_for k pp -> 
  VerifyRange pp (rp_with_Π rp (MkIPP (ipp_LRs (rp_Π rp)) (ipp_a (rp_Π rp)) (ipp_b (rp_Π rp)) P c)) V = VerifyRange pp rp V.
Proof.
  intros C pp k rp V P c _. unfold VerifyRange, VerifyRange_st. cbn [rp_with_Π rp_Δ rp_u rp_W rp_γ rp_Π rp_c rp_Q rp_R rp_C1 rp_C2 rp_τ rp_ρ ipp_LRs ipp_a ipp_b].
  rewrite rangeProofRO1_spec, ppRdx_spec. cbn [rbind].
  destruct (IterativeVerify _ _ _ _) as [[[xs u]|err]| |]; cbn [rbind snd]; done.
Qed.
Print Assumptions C64_reverification.
Print Assumptions C64_inner_claims_ignored.
Example C64_nonvacuous : exists (pp : RPPP toy) V rp rp', VerifyRange_st pp rp V = Ret (rp', nil_error) /\ VerifyRange_st pp rp' V = Ret (rp', nil_error).
Proof.
  destruct (C21_generated_params toy 1) as (pp & Hpp & Hwf & _); [lia|].
  destruct (C21_range_complete toy pp 1 [zr 5; zr (2 ^ 63 - 1)] (zr 11) (toy_coins 2)) as (rp & _ & H);
    [done|apply toy_coins_ok|done|repeat constructor; apply small_in_range; lia|].
  destruct (H (toy_range_challenges _ _ _)) as [_ Hv]. unfold VerifyRange in Hv. apply rbind_inv in Hv. destruct Hv as ([rp' e] & Hst & He).
  cbn in He. inversion He; subst. eexists pp, _, rp, rp'. split; [exact Hst|]. eapply C64_reverification; [exact Hwf|exact Hst].
Qed.
