(** Properties C24–C27: package sum (sum/sa.go). *)
From Verif Require Import Sum_facts Extract Toy.
Local Open Scope Zr_scope.

(** Parameters for vectors of length n = 2^k: n generators Gs, n generators H and B = H^(1,…,1,-1); F, U, G
    and the digest are arbitrary.  NewPublicParams(2^k) makes such parameters, and so does
    pol.GeneratePublicParams, which replaces Gs and F. *)
Definition sum_params {C : Curve} (k : nat) (pp : sumPP C) : Prop :=
  length (sp_Gs pp) = (2 ^ k)%nat /\ length (sp_H pp) = (2 ^ k)%nat /\
  sp_b pp = ones (2 ^ k - 1) ++ [zopp 1] /\ sp_B pp = msm (sp_b pp) (sp_H pp).
Lemma sum_params_wf {C : Curve} k (pp : sumPP C) : sum_params k pp -> sum_wf k pp.
Proof. intros (H1 & H2 & H3 & H4). unfold sum_wf, sum_b. rewrite <- H3. done. Qed.
(** The challenges of the inner-product argument as replayed by Verify (C12): hashes of the pairs of LRs
    and the digest of the instance. *)
Definition sum_challenges {C : Curve} (pp : sumPP C) (p : sumProof C) : list Zr :=
  chal (inst_digest (sum_ipa pp)) (ipp_LRs (sm_π p)).
Definition sum_first_challenge {C : Curve} (pp : sumPP C) : Zr := inst_x (sum_ipa pp).
Definition commit_sum {C : Curve} (pp : sumPP C) (v : list Zr) (r : Zr) : G1 C :=
  gadd (gmul r (sp_F pp)) (msm v (sp_Gs pp)).
(** the last entry is the sum of the others *)
Definition sums_up (v : list Zr) : Prop := exists u, v = u ++ [zsum u].
Lemma sums_up_dot v k : length v = (2 ^ k)%nat -> (sums_up v <-> dot v (sum_b (2 ^ k)) = 0).
Proof.
  intros Hv. pose proof (Nat.pow_nonzero 2 k ltac:(lia)) as Hk. 
  destruct (exists_last (l := v)) as (u & s & ->); [intros ->; cbn in Hv; lia|].
  rewrite app_length in Hv. cbn in Hv. rewrite <- Hv, Nat.add_1_r, dot_sum_b. split.
  - intros (u' & E). apply app_inj_2 in E; [|done]. destruct E as [<- E]. apply cons_inv in E. destruct E as [-> _]. ring.
  - intros E. exists u. do 2 f_equal. symmetry. by apply zsub_eq_0.
Qed.
Lemma sums_up_dec v : sums_up v \/ ~ sums_up v.
Proof.
  destruct (decide (v = [])) as [->|Hne]; [right; intros (u & E); destruct u; done|].
  destruct (exists_last Hne) as (u & s & ->). destruct (zeqb s (zsum u)) eqn:E.
  - apply zeqb_eq in E. left. exists u. congruence.
  - right. intros (u' & E'). apply app_inj_2 in E'; [|done]. destruct E' as [<- E']. apply cons_inv in E'. destruct E' as [-> _].
    rewrite (proj2 (zeqb_eq _ _) eq_refl) in E. done.
Qed.

Theorem C24_generated_params : forall (C : Curve) k, exists pp : sumPP C,
  sum_NewPublicParams (2 ^ k) = Ret pp /\ sum_params k pp.
Proof.
  intros C k. destruct (sum_new_params (C:=C) k) as (pp & H & (H1 & H2 & H3 & H4) & _). exists pp. split; [done|].
  unfold sum_params. rewrite H3 in *. done.
Qed.
(** ** C24 *)
Theorem C24_sum_complete : forall (C : Curve) (pp : sumPP C) k v r w r',
  sum_params k pp -> length v = (2 ^ k)%nat -> sums_up v -> length w = (2 ^ k)%nat ->
  exists p, sum_NewArgument pp (commit_sum pp v r) v r w r' = Ret p /\
    (Forall (fun x => x <> 0) (sum_challenges pp p) -> sum_Verify p pp (commit_sum pp v r) = Ret nil_error).
Proof.
  intros C pp k v r w r' Hpp Hv Hs Hw. apply sum_params_wf in Hpp.
  destruct (sum_honest k pp v r w r' Hpp Hv Hw) as (p & Hp & _ & Hver). exists p. split; [exact Hp|].
  intros Hnz. destruct (Hver Hnz) as (e & He & Hiff). unfold commit_sum. rewrite He. f_equal. apply Hiff.
  rewrite (proj1 (sums_up_dot v k Hv) Hs). rewrite zmul_0_r. apply gmul_0.
Qed.
Print Assumptions C24_generated_params.
Print Assumptions C24_sum_complete.
Lemma toy_chal D LRs : Forall (fun x => x <> 0) (chal (C:=toy) D LRs).
Proof.
  revert LRs. fix IH 1. intros [|L [|R t]]; cbn [chal]; [constructor..|]. constructor; [apply toy_challenge_neq_0|apply IH].
Qed.
Example C24_nonvacuous : exists pp p, sum_NewPublicParams (C:=toy) 4 = Ret pp /\
  let v := [zr 1; zr 2; zr 3; zr 6] in
  sum_NewArgument pp (commit_sum pp v (zr 9)) v (zr 9) [zr 4; zr 4; zr 5; zr 6] (zr 7) = Ret p /\
  sum_Verify p pp (commit_sum pp v (zr 9)) = Ret nil_error.
Proof.
  destruct (C24_generated_params toy 2) as (pp & Hpp & Hwf).
  destruct (C24_sum_complete toy pp 2 [zr 1; zr 2; zr 3; zr 6] (zr 9) [zr 4; zr 4; zr 5; zr 6] (zr 7) Hwf) as (p & Hp & Hv); [done| |done|].
  - exists [zr 1; zr 2; zr 3]. cbn [app zsum]. repeat f_equal.
  - exists pp, p. split; [exact Hpp|]. split; [exact Hp|]. apply Hv. apply toy_chal.
Qed.

(** ** C25 *)
(** entry i of Σ_j t_j·v_j *)
Definition aggr (n : nat) (v : list (list Zr)) (t : list Zr) : list Zr :=
  foldr (fun xv acc => vadd (vscale (fst xv) (snd xv)) acc) (zeros n) (zip t v).
Lemma aggr_length n v t : Forall (fun x => length x = n) v -> length (aggr n v t) = n.
Proof.
  intros H. revert t. induction H as [|x v Hx H IH]; intros [|y t]; try apply replicate_length.
  change (aggr n (x :: v) (y :: t)) with (vadd (vscale y x) (aggr n v t)). rewrite vadd_length; rewrite vscale_length, ?IH; done.
Qed.
Lemma aggr_entry n v t i : Forall (fun x => length x = n) v -> length t = length v -> (i < n)%nat ->
  exists a, aggr n v t !! i = Some a /\ sum_aggr_entry v t i = Ret a.
Proof.
  intros H Ht Hi. unfold sum_aggr_entry.
  assert (Hc : exists col, mapM (fun vj => idx vj i) v = Ret col /\ length col = length v /\ aggr n v t !! i = Some (dot col t)).
  { revert t Ht. induction H as [|x v Hx H IH]; intros [|y t] Ht; try done.
    - exists []. split; [done|]. split; [done|]. apply lookup_replicate. done.
    - destruct (IH t) as (col & Hcol & HL & Ha); [cbn in Ht; lia|].
      destruct (lookup_lt_is_Some_2 x i) as [xi Hxi]; [lia|].
      exists (xi :: col). cbn [mapM]. unfold idx at 1. rewrite Hxi. cbn [rbind]. rewrite Hcol. split; [done|]. split; [cbn; lia|].
      change (aggr n (x :: v) (y :: t)) with (vadd (vscale y x) (aggr n v t)). unfold vadd. rewrite lookup_zip_with, Ha.
      unfold vscale. rewrite list_lookup_fmap, Hxi. cbn. f_equal. ring. }
  destruct Hc as (col & Hcol & HL & Ha). rewrite Hcol. cbn [rbind]. exists (dot col t). split; [done|]. apply vec_innerprod_spec. lia.
Qed.
Lemma aggr_spec n v t : Forall (fun x => length x = n) v -> length t = length v ->
  mapM (sum_aggr_entry v t) (seq 0 n) = Ret (aggr n v t).
Proof.
  intros H Ht. rewrite (mapM_ret _ (fun i => default 0 (aggr n v t !! i))).
  - f_equal. apply list_eq. intros i. rewrite list_lookup_fmap. destruct (decide (i < n)%nat) as [Hi|Hi].
    + rewrite lookup_seq_lt by done. cbn. destruct (aggr_entry n v t i H Ht Hi) as (a & -> & _). done.
    + rewrite (lookup_ge_None_2 (seq 0 n)) by (rewrite seq_length; lia). rewrite lookup_ge_None_2; [done|]. rewrite aggr_length by done. lia.
  - intros i Hi. apply elem_of_seq in Hi. destruct (aggr_entry n v t i H Ht ltac:(lia)) as (a & -> & ->). done.
Qed.
Lemma dot_aggr n v t b : Forall (fun x => length x = n) v -> Forall (fun x => dot x b = 0) v -> dot (aggr n v t) b = 0.
Proof.
  intros H. revert t. induction H as [|x v Hx H IH]; intros [|y t] Hd; try apply dot_zeros_l.
  change (aggr n (x :: v) (y :: t)) with (vadd (vscale y x) (aggr n v t)). apply Forall_cons in Hd. destruct Hd as [Hd Hd'].
  rewrite dot_vadd_l by (rewrite vscale_length, aggr_length; done). rewrite dot_vscale_l, Hd, IH by done. ring.
Qed.
Lemma msm_aggr {C : Curve} n (F : G1 C) Gs v r t : Forall (fun x => length x = n) v -> length r = length v -> length t = length v ->
  msm t (zip_with (fun x ρ => gadd (gmul ρ F) (msm x Gs)) v r) = gadd (gmul (dot r t) F) (msm (aggr n v t) Gs).
Proof.
  intros H. revert r t. induction H as [|x v Hx H IH]; intros [|ρ r] [|y t] Hr Ht; try done.
  - cbn [zip_with msm dot aggr zip foldr]. rewrite msm_zeros, gmul_0, gadd_0_r. done.
  - cbn [zip_with msm dot]. change (aggr n (x :: v) (y :: t)) with (vadd (vscale y x) (aggr n v t)).
    rewrite IH by (cbn in *; lia). rewrite msm_vadd by (rewrite vscale_length, aggr_length; done). rewrite msm_vscale.
    generalize (dot r t). intros d. module.
Qed.
Theorem C25_aggregated_sum_complete : forall (C : Curve) (pp : sumPP C) k v r w r',
  sum_params k pp -> v <> [] -> Forall (fun x => length x = (2 ^ k)%nat /\ sums_up x) v -> length r = length v ->
  length w = (2 ^ k)%nat ->
  let V := zip_with (commit_sum pp) v r in
  exists p, sum_NewAggregatedArgument pp V v r w r' = Ret p /\
    (Forall (fun x => x <> 0) (sum_challenges pp p) -> sum_VerifyAggregated p pp V = Ret nil_error).
Proof.
  intros C pp k v r w r' Hpp Hne Hv Hr Hw V.
  assert (Hl : Forall (fun x => length x = (2 ^ k)%nat) v) by (eapply Forall_impl; [exact Hv|]; intros x [H _]; exact H).
  assert (LV : length V = length v) by (unfold V; rewrite zip_with_length; lia).
  set (t := PowerSeries (length v) (sum_τ V)). assert (Lt : length t = length v) by apply power_series_length.
  assert (EV : msm t V = commit_sum pp (aggr (2 ^ k) v t) (dot r t)) by (apply msm_aggr; done).
  assert (HVne : V <> []) by (apply nonempty_len; rewrite LV; destruct v; [done|cbn; lia]).
  assert (Hd : Forall (fun x => dot x (sum_b (2 ^ k)) = 0) v).
  { eapply Forall_impl; [exact Hv|]. intros x [H1 H2]. apply (sums_up_dot x k H1). done. }
  destruct (C24_sum_complete C pp k (aggr (2 ^ k) v t) (dot r t) w r' Hpp) as (p & Hp & Hver);
    [apply aggr_length; done|apply (sums_up_dot _ k); [apply aggr_length; done|apply dot_aggr; done]|done|].
  exists p. split.
  - unfold sum_NewAggregatedArgument. rewrite hvzk_spec. cbn [rbind]. fold t.
    destruct v as [|v0 v']; [done|]. cbn [idx lookup list_lookup rbind].
    assert (L0 : length v0 = (2 ^ k)%nat) by (apply Forall_cons in Hl; apply Hl). rewrite L0.
    rewrite aggr_spec by done. cbn [rbind]. rewrite vec_innerprod_spec by lia. cbn [rbind].
    rewrite mulv_sum by (done || lia). cbn [rbind]. rewrite EV. exact Hp.
  - intros Hnz. unfold sum_VerifyAggregated. rewrite hvzk_spec. cbn [rbind]. rewrite LV. fold t.
    rewrite mulv_sum by (done || lia). cbn [rbind]. rewrite EV. apply Hver. exact Hnz.
Qed.
Print Assumptions C25_aggregated_sum_complete.
Example C25_nonvacuous : exists pp p, sum_NewPublicParams (C:=toy) 2 = Ret pp /\
  let v := [[zr 1; zr 1]; [zr 5; zr 5]; [zr 0; zr 0]] in let r := [zr 9; zr 8; zr 7] in
  let V := zip_with (commit_sum pp) v r in
  sum_NewAggregatedArgument pp V v r [zr 4; zr 6] (zr 7) = Ret p /\ sum_VerifyAggregated p pp V = Ret nil_error.
Proof.
  destruct (C24_generated_params toy 1) as (pp & Hpp & Hwf).
  assert (S : forall x, sums_up [x; x]) by (intros x; exists [x]; cbn; do 2 f_equal; ring).
  destruct (C25_aggregated_sum_complete toy pp 1 [[zr 1; zr 1]; [zr 5; zr 5]; [zr 0; zr 0]] [zr 9; zr 8; zr 7] [zr 4; zr 6] (zr 7) Hwf)
    as (p & Hp & Hv); [done| |done|done|].
  - repeat (apply Forall_cons; split; [split; [done|apply S]|]). constructor.
  - exists pp, p. split; [exact Hpp|]. split; [exact Hp|]. apply Hv. apply toy_chal.
Qed.

(** ** C26 *)
Theorem C26_wrong_sum_rejected : forall (C : Curve) (pp : sumPP C) k v r w r' p,
  sum_params k pp -> length v = (2 ^ k)%nat -> length w = (2 ^ k)%nat ->
  ~ sums_up v -> sum_NewArgument pp (commit_sum pp v r) v r w r' = Ret p ->
  Forall (fun x => x <> 0) (sum_challenges pp p) -> sum_first_challenge pp <> 0 -> sp_U pp <> gzero ->
  exists msg, sum_Verify p pp (commit_sum pp v r) = Ret (Err msg).
Proof.
  intros C pp k v r w r' p Hpp Hv Hw Hs Hp Hnz Hx HU. apply sum_params_wf in Hpp.
  destruct (sum_honest k pp v r w r' Hpp Hv Hw) as (p' & Hp' & _ & Hver). unfold commit_sum in *. rewrite Hp in Hp'. inversion Hp'; subst p'.
  destruct (Hver Hnz) as (e & He & Hiff). rewrite He. destruct e as [|msg]; [exfalso|by exists msg].
  destruct Hiff as [Hiff _]. specialize (Hiff eq_refl). apply gmul_eq_0 in Hiff. destruct Hiff as [E|E]; [|done].
  apply zmul_eq_0 in E. destruct E as [E|E]; [done|]. apply Hs. apply (sums_up_dot v k Hv). exact E.
Qed.
Theorem C26_commitment_checks_sum : forall (C : Curve) (pp : sumPP C) v r,
  (2 <= length v)%nat -> length (sp_Gs pp) = length v ->
  (sums_up v -> sum_NewCommitment pp v r = Ret (commit_sum pp v r)) /\
  (~ sums_up v -> sum_NewCommitment pp v r = Panic).
Proof.
  intros C pp v r Hv HG. unfold sum_NewCommitment. rewrite mulv_sum by (done || (apply nonempty_len; lia)). cbn [rbind].
  destruct (exists_last (l := v)) as (u & s & ->); [intros ->; cbn in Hv; lia|].
  rewrite app_length in *. cbn [length] in *. destruct u as [|u0 u]; [cbn in Hv; lia|].
  cbn [idx lookup list_lookup app rbind]. 
  assert (E : take (length (u0 :: u) + 1 - 2) (drop 1 ((u0 :: u) ++ [s])) = u).
  { cbn [length app drop]. apply take_app_alt. lia. }
  change (u0 :: u ++ [s]) with ((u0 :: u) ++ [s]). rewrite E.
  assert (Ei : idx ((u0 :: u) ++ [s]) (length (u0 :: u) + 1 - 1) = Ret s).
  { unfold idx. rewrite Nat.add_sub. rewrite list_lookup_middle by done. done. }
  rewrite Ei. cbn [rbind].
  assert (Ef : fold_left zadd u u0 = zsum (u0 :: u)).
  { clear. revert u0. induction u as [|x u IH]; intros u0; cbn [fold_left zsum]; [ring|]. rewrite IH. cbn [zsum]. ring. }
  rewrite Ef. split; intros H.
  - destruct H as (u' & E'). apply app_inj_2 in E'; [|done]. destruct E' as [<- E']. apply cons_inv in E'. destruct E' as [-> _].
    rewrite (proj2 (zeqb_eq _ _) eq_refl). done.
  - destruct (zeqb s _) eqn:Es; [|done]. exfalso. apply zeqb_eq in Es. apply H. exists (u0 :: u). rewrite Es. done.
Qed.
Print Assumptions C26_wrong_sum_rejected.
Print Assumptions C26_commitment_checks_sum.
Example C26_nonvacuous : exists pp p msg, sum_NewPublicParams (C:=toy) 2 = Ret pp /\
  sum_NewArgument pp (commit_sum pp [zr 1; zr 2] (zr 9)) [zr 1; zr 2] (zr 9) [zr 4; zr 6] (zr 7) = Ret p /\
  sum_Verify p pp (commit_sum pp [zr 1; zr 2] (zr 9)) = Ret (Err msg) /\
  sum_NewCommitment pp [zr 1; zr 2] (zr 9) = Panic /\ exists V, sum_NewCommitment pp [zr 2; zr 2] (zr 9) = Ret V.
Proof.
  destruct (sum_new_params (C:=toy) 1) as (pp & Hpp & Hwf & _ & _ & _ & HU).
  assert (Hwf' : sum_params 1 pp) by (destruct Hwf as (H1 & H2 & H3 & H4); unfold sum_params; rewrite H3; done).
  destruct (sum_honest 1 pp [zr 1; zr 2] (zr 9) [zr 4; zr 6] (zr 7) Hwf eq_refl eq_refl) as (p & Hp & _ & _).
  assert (Hw : ~ sums_up [zr 1; zr 2]).
  { intros (u & E). destruct u as [|u0 [|]]; try done.
    - apply cons_inv in E. destruct E as [E1 E2]. apply cons_inv in E2. destruct E2 as [E2 _]. cbn [zsum] in E2.
      rewrite <- E1 in E2. change 0 with (zr 0) in E2. rewrite <- zr_add in E2. apply zr_inj_small in E2; [done|pose proof r_pos; unfold r in *; lia..].
    - apply (f_equal length) in E. rewrite app_length in E. cbn in E. lia. }
  destruct (C26_wrong_sum_rejected toy pp 1 [zr 1; zr 2] (zr 9) [zr 4; zr 6] (zr 7) p Hwf' eq_refl eq_refl Hw Hp (toy_chal _ _)) as (msg & Hmsg).
  { apply toy_challenge_neq_0. }
  { unfold RandGenVec in HU. cbn [seq fmap list_fmap] in HU. apply cons_inv in HU. destruct HU as [-> _]. apply toy_hash_to_g1_neq_0. }
  exists pp, p, msg. split; [exact Hpp|]. split; [exact Hp|]. split; [exact Hmsg|]. split.
  - apply C26_commitment_checks_sum; [cbn; lia|apply Hwf|exact Hw].
  - eexists. apply C26_commitment_checks_sum; [cbn; lia|apply Hwf|]. exists [zr 2]. cbn. do 2 f_equal.
Qed.

(** ** C27 *)
(** The forger's messages LRs do not depend on v: the H-parts are those of the honest prover, the first L has
    an additional U-part.  Once the challenges x_1,…,x_k are known they choose
    v = a·(x_1^∓1 ⊗ … ⊗ x_k^∓1) with a = x_1²/β. *)
Theorem C27_sum_forgery : forall (C : Curve) (pp : sumPP C) k, (1 <= k)%nat -> sum_params k pp ->
  exists LRs : list (G1 C), length LRs = (2 * k)%nat /\
    let xs := chal (inst_digest (sum_ipa pp)) LRs in
    (Forall (fun x => x <> 0) xs -> dot (sp_b pp) (gco xs) <> 0 ->
     forall r, exists v p, length v = (2 ^ k)%nat /\ ~ sums_up v /\ ipp_LRs (sm_π p) = LRs /\
       sum_Verify p pp (commit_sum pp v r) = Ret nil_error).
Proof.
  intros C pp k Hk Hpp. apply sum_params_wf in Hpp. destruct Hpp as (HG & HH & Hb & HB). destruct k as [|k]; [lia|].
  set (b := sum_b (2 ^ S k)) in *. assert (Lb : length b = (2 ^ S k)%nat) by (apply sum_b_length; pose proof (pow2_pos (S k)); lia).
  set (ip := sum_ipa pp). set (D := inst_digest ip). set (U' := gmul (inst_x ip) (sp_U pp)). 
  set (z := zeros (2 ^ S k)). assert (Lz : length z = (2 ^ S k)%nat) by apply replicate_length.
  set (L := gadd (ipa_L U' z b (sp_Gs pp) (sp_H pp)) U'). set (R := ipa_R U' z b (sp_Gs pp) (sp_H pp)).
  set (x := round_x D L R).
  destruct (ipa_prove_spec k (S (2 ^ k)) (inst_pp ip) (zeros (2 ^ k)) (foldb x b) gzero (foldg x (sp_Gs pp)) (foldh x (sp_H pp)))
    as (LRs & HL & _ & Heq).
  { pose proof (Nat.pow_gt_lin_r 2 k). lia. }
  { apply replicate_length. } { by apply foldb_length. } { by apply foldg_length. } { by apply foldh_length. }
  exists (L :: R :: LRs). split; [cbn [length]; lia|]. cbv zeta. cbn [chal]. fold D in Heq |- *. fold x.
  cbn [inst_pp bp_Digest bp_U] in Heq. fold D in Heq. set (xs := chal D LRs) in *.
  assert (Lxs : length xs = k) by (by apply chal_length).
  intros Hnz Hβ r. rewrite Hb in Hβ. set (β := dot b (gco (x :: xs))) in *.
  apply Forall_cons in Hnz. destruct Hnz as [Hx Hnz]. specialize (Heq Hnz).
  assert (Eβ : dot (foldb x b) (gco xs) = β) by (apply dot_foldb; rewrite Lxs; exact Lb).
  rewrite Eβ in Heq. rewrite dot_zeros_l in Heq. unfold ipa_com, ipa_rhs in Heq. cbn [inst_pp bp_U] in Heq.
  rewrite ?zmul_0_l, ?dot_zeros_l, ?msm_zeros, ?gmul_0, ?gadd_0_l, ?gadd_0_r, ?gadd_0_l in Heq.
  rewrite msm_foldh in Heq by (rewrite Lxs; exact HH).
  pose proof (ipa_round x U' z b (sp_Gs pp) (sp_H pp) k Hx Lz Lb HG HH) as Hr.
  assert (Ez : folda x z = zeros (2 ^ k)).
  { unfold folda, z. rewrite zeros_length, half_pow2. unfold zeros. rewrite take_replicate, drop_replicate.
    replace (2 ^ S k - 2 ^ k)%nat with (2 ^ k)%nat by (cbn; lia). rewrite Nat.min_l by (cbn; lia).
    unfold vscale, vadd. rewrite !fmap_replicate, zip_with_replicate, !zmul_0_r by done. f_equal. }
  rewrite Ez in Hr. unfold ipa_com at 1 2 in Hr. unfold z at 2 3 in Hr. rewrite !dot_zeros_l, !msm_zeros, !gmul_0, !gadd_0_l, !gadd_0_r in Hr.
  fold R in Hr.
  set (a := x * x * zinv β). set (v := vscale a (gco (x :: xs))).
  assert (Lv : length v = (2 ^ S k)%nat) by (unfold v; rewrite vscale_length, gco_length; cbn [length]; rewrite Lxs; done).
  exists v, (MkSumProof gzero 0 (zopp r) (MkIPP (L :: R :: LRs) a β gzero 0)). split; [exact Lv|]. split; [|split; [done|]].
  - intros Hs. apply (sums_up_dot v (S k) Lv) in Hs. unfold v in Hs. fold b in Hs. rewrite dot_vscale_l, (dot_comm _ b) in Hs. fold β in Hs.
    apply zmul_eq_0 in Hs. destruct Hs as [Hs|Hs]; [|done]. unfold a in Hs. apply zmul_eq_0 in Hs. destruct Hs as [Hs|Hs].
    + apply zmul_eq_0 in Hs. destruct Hs; done.
    + revert Hs. apply zinv_neq_0. done.
  - rewrite sum_verify_spec by lia. cbn [sm_π ipp_LRs ipp_a ipp_b sm_c sm_W].
    destruct (ipp_verify_spec (S k) (sum_ipa pp) (MkIPP (L :: R :: LRs) a β
      (sum_P pp (MkSumProof gzero 0 (zopp r) (MkIPP (L :: R :: LRs) a β gzero 0)) (commit_sum pp v r))
      (0 * sum_x 0 (commit_sum pp v r) gzero))) as (e & He & Hiff); [exact HG|exact HH|cbn [ipp_LRs length]; lia|].
    rewrite He. f_equal. apply Hiff. clear He Hiff. cbn [ipp_LRs ipp_P ipp_C ipp_a ipp_b].
    fold ip D. rewrite take_ge by (cbn [length]; lia). cbn [chal]. fold x xs. cbn [lrsum sum_ipa bp_G bp_H bp_U].
    unfold sum_P. cbn [sm_c sm_W sm_ρ]. rewrite HB. fold b. rewrite gmul_O, zmul_0_l, zmul_0_r, gmul_0, !gadd_0_r.
    unfold commit_sum. unfold v. rewrite msm_vscale. unfold L.
    change (bp_G ip) with (sp_Gs pp). change (bp_H ip) with (sp_H pp). change (bp_U ip) with (sp_U pp).
    replace (gmul (a * β * inst_x ip) (sp_U pp)) with (gmul (x * x) U').
    2:{ unfold U'. rewrite <- gmul_mul. f_equal. unfold a. generalize (inst_x ip). intros y. field. exact Hβ. }
    revert Hr Heq. generalize (ipa_L U' z b (sp_Gs pp) (sp_H pp)) R (lrsum xs LRs) (msm (foldb x b) (foldh x (sp_H pp))) (zinv (x * x)).
    generalize (msm b (sp_H pp)) (msm (gco (x :: xs)) (sp_Gs pp)) (msm (hco (x :: xs)) (sp_H pp)) U' a β (x * x). clear.
    intros B0 g0 h0 U0 a0 β0 x2 L0 R0 S0 T0 y0 Hr Heq. rewrite <- Heq, <- Hr. module.
Qed.
Print Assumptions C27_sum_forgery.
(** In the toy curve no challenge is 1 or -1 (its first byte is 1), so the forgery applies with k = 1. *)
Lemma be_val_cat a b : be_val (a ++ b) = (be_val a * 256 ^ Z.of_nat (length b) + be_val b)%Z.
Proof.
  induction b as [|x b IH] using rev_ind; [rewrite app_nil_r; cbn; lia|].
  rewrite app_assoc, !be_val_app, IH, app_length. cbn [length]. replace (Z.of_nat (length b + 1)) with (Z.succ (Z.of_nat (length b))) by lia.
  rewrite Z.pow_succ_r by lia. ring.
Qed.
Lemma toy_challenge_square bs : fe (sha256 toy bs) * fe (sha256 toy bs) <> 1.
Proof.
  intros E. set (x := fe (sha256 toy bs)) in *.
  assert (Hx : x = 1 \/ x = zopp 1).
  { assert (H : (x - 1) * (x + 1) = 0) by (transitivity (x * x - 1); [ring|rewrite E; ring]).
    apply zmul_eq_0 in H. destruct H as [H|H]; [left; by apply zsub_eq_0|right].
    apply zsub_eq_0. rewrite <- H. ring. }
  pose proof (digest_limbs_range (toy_hash bs) (toy_hash_len bs) (toy_hash_wf bs)) as Hr. cbv zeta in Hr.
  pose proof (limbs_val_range _ Hr) as Hv. set (d := digest_limbs (toy_hash bs)) in *.
  assert (Ex : zr (limbs_val d) = x * zr (2 ^ 256)).
  { unfold x. with_strategy transparent [fe] unfold fe. change (sha256 toy bs) with (toy_hash bs). fold d. field. apply pow256_neq_0. }
  assert (L0 : (2 ^ 56 <= l0 d < 2 ^ 57)%Z).
  { assert (El : l0 d = be_val ([1%Z] ++ take 7 (be_bytes 31 (toy_mix bs)))) by reflexivity. rewrite El.
    assert (Ht : length (take 7 (be_bytes 31 (toy_mix bs))) = 7%nat) by (rewrite take_length, be_bytes_length; lia).
    assert (Hw : wf_bytes (take 7 (be_bytes 31 (toy_mix bs)))) by (apply Forall_take, be_bytes_wf).
    pose proof (be_val_bound _ Hw) as Hb. rewrite Ht in Hb.
    rewrite be_val_cat, Ht. change (be_val [1%Z]) with 1%Z. lia. }
  assert (Hm : (limbs_val d mod 2 ^ 64 = l0 d)%Z).
  { unfold limbs_val. assert (E2 : (2 ^ 128 = 2 ^ 64 * 2 ^ 64)%Z) by reflexivity. assert (E3 : (2 ^ 192 = 2 ^ 64 * 2 ^ 64 * 2 ^ 64)%Z) by reflexivity.
    rewrite E2, E3. assert (HP : (0 <= l0 d < 2 ^ 64)%Z) by lia. assert (Hp : (0 < 2 ^ 64)%Z) by lia. revert HP Hp.
    generalize (2 ^ 64)%Z (l0 d) (l1 d) (l2 d) (l3 d). clear. intros p a b c d HP Hp.
    replace (a + p * b + p * p * c + p * p * p * d)%Z with (a + (b + p * c + p * p * d) * p)%Z by ring.
    rewrite Z.mod_add by lia. apply Z.mod_small. lia. }
  apply (f_equal zv) in Ex. rewrite zv_zr, Z.mod_small in Ex by lia.
  destruct Hx as [Hx|Hx]; rewrite Hx in Ex.
  - replace (1 * zr (2 ^ 256)) with (zr (2 ^ 256)) in Ex by ring. rewrite zv_zr in Ex. rewrite Ex in Hm.
    change (2 ^ 256 mod r mod 2 ^ 64)%Z with 12436184717236109307%Z in Hm. lia.
  - replace (zopp 1 * zr (2 ^ 256)) with (zr (- 2 ^ 256)) in Ex by (rewrite zr_opp; ring). rewrite zv_zr in Ex. rewrite Ex in Hm.
    change (- 2 ^ 256 mod r mod 2 ^ 64)%Z with 10902020042510041094%Z in Hm. lia.
Qed.
Example C27_nonvacuous : exists pp v p, sum_NewPublicParams (C:=toy) 2 = Ret pp /\ length v = 2%nat /\ ~ sums_up v /\
  sum_Verify p pp (commit_sum pp v (zr 5)) = Ret nil_error.
Proof.
  destruct (C24_generated_params toy 1) as (pp & Hpp & Hwf).
  destruct (C27_sum_forgery toy pp 1 ltac:(lia) Hwf) as (LRs & HL & H). cbv zeta in H.
  destruct (H (toy_chal _ _)) with (r := zr 5) as (v & p & Hv & Hs & _ & Hver).
  - destruct Hwf as (_ & _ & -> & _). destruct LRs as [|L [|R [|]]]; try (cbn in HL; lia). cbn [chal].
    set (x := round_x _ L R). assert (Hx : x <> 0) by apply toy_challenge_neq_0.
    assert (Hx2 : x * x <> 1) by apply toy_challenge_square. clearbody x.
    change (ones (2 ^ 1 - 1) ++ [zopp 1]) with [1; zopp 1]. change (gco [x]) with [zinv x * 1; x * 1]. cbn [dot].
    intros E. apply Hx2. assert (E' : zinv x = x).
    { apply zsub_eq_0. rewrite <- E. ring. }
    rewrite <- E' at 1. apply zinv_l. exact Hx.
  - exists pp, v, p. done.
Qed.
