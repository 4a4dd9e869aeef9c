(** Properties C69 and C70: package sum (sum/sa.go): what Verify and VerifyAggregated check, and special
    soundness of the protocols they check. *)
From Verif Require Import Sum_facts Extract Prop_ipa Prop_ir Prop_range Prop_rangesound Prop_sum Toy.
Local Open Scope Zr_scope.

(** ** Specification *)
(** The point whose opening the inner argument proves (sum/sa.go:188-192). *)
Definition sum_point {M : Grp} (F : M) (Hs : list M) (b : list Zr) (V W : M) (x ρ : Zr) : M :=
  gadd (gadd (gadd (gmul ρ F) V) (gmul x W)) (msm b Hs).
(** The prover has sent W and c and answers the challenge x: ρ, and trees of the inner argument for the claim c·x and two of
    its first challenges. *)
Definition sum_conversations {M : Grp} (k : nat) (U F : M) (Gs Hs : list M) (b : list Zr) (V W : M) (c x : Zr) : Prop :=
  exists ρ s s' t t', s <> s' /\ s <> 0 /\ s' <> 0 /\
    let P := sum_point F Hs b V W x ρ in
    tree_accepts k (gmul s U) Gs Hs (gadd P (gmul (s * (c * x)) U)) t /\
    tree_accepts k (gmul s' U) Gs Hs (gadd P (gmul (s' * (c * x)) U)) t'.
(** Three answers for the same W and c. *)
Definition sum_answered {M : Grp} (k : nat) (U F : M) (Gs Hs : list M) (b : list Zr) (V : M) : Prop :=
  exists W c xs, length xs = 3%nat /\ NoDup xs /\ forall x, x ∈ xs -> sum_conversations k U F Gs Hs b V W c x.

(** ** C69 *)
Lemma vadd_vsub_l a b n : length a = n -> length b = n -> vadd a (vsub b a) = b.
Proof.
  revert b n. induction a as [|x a IH]; intros [|y b] n Ha Hb; cbn in *; try lia; [done|]. unfold vadd, vsub in *. cbn. f_equal; [ring|].
  eapply (IH b (length a)); lia.
Qed.
Theorem C69_special_soundness : forall (M : Grp) k (U F : M) Gs Hs b V,
  length Gs = (2 ^ k)%nat -> length Hs = (2 ^ k)%nat -> length b = (2 ^ k)%nat -> indep U Gs Hs -> indep F Gs Hs ->
  sum_answered k U F Gs Hs b V ->
  exists r v δ, length v = (2 ^ k)%nat /\ length δ = (2 ^ k)%nat /\
    V = gadd (gadd (gmul r F) (msm v Gs)) (msm δ Hs) /\ dot v (vadd b δ) = 0.
Proof.
  intros M k U F Gs Hs b V LG LH Lb HU HF (W & c & xs & Lxs & Dxs & Hxs). set (n := (2 ^ k)%nat) in *.
  assert (Hop : forall x, x ∈ xs -> exists ρ a d, length a = n /\ length d = n /\
    gadd V (gmul x W) = opening F Gs Hs a d ρ /\ dot a (vadd b d) = c * x).
  { intros x Hx. destruct (Hxs x Hx) as (ρ & s & s' & t & t' & Hss & Hs0 & Hs0' & T & T').
    destruct (C16_two_first_challenges M k U Gs Hs (sum_point F Hs b V W x ρ) (c * x) s s' t t') as (a & d & La & Ld & E & Ec);
      [done..|exact T|exact T'|].
    exists (- ρ), a, (vsub d b). split; [done|]. split; [rewrite vsub_length; lia|]. split.
    - unfold opening. rewrite msm_vsub by lia. unfold sum_point in E.
      transitivity (gadd (gadd (gadd (gadd (gadd (gmul ρ F) V) (gmul x W)) (msm b Hs)) (gopp (msm b Hs))) (gmul (- ρ) F)); [module|].
      rewrite E. module.
    - rewrite (vadd_vsub_l b d n) by done. done. }
  clear Hxs. destruct xs as [|x1 [|x2 [|x3 [|]]]]; try (cbn in Lxs; lia).
  destruct (Hop x1) as (ρ1 & a1 & d1 & La1 & Ld1 & E1 & _); [set_solver|].
  destruct (Hop x2) as (ρ2 & a2 & d2 & La2 & Ld2 & E2 & _); [set_solver|].
  assert (H12 : x1 - x2 <> 0). { intros E. apply zsub_eq_0 in E. apply NoDup_cons in Dxs. set_solver. }
  set (i := zinv (x1 - x2)). assert (Hi : i * (x1 - x2) = 1) by (apply zinv_l; done). generalize dependent i. intros i Hi.
  set (w := vscale i (vsub a1 a2)). set (δw := vscale i (vsub d1 d2)). set (rw := i * (ρ1 - ρ2)).
  assert (Lw : length w = n) by (unfold w; rewrite vscale_length, vsub_length; lia).
  assert (Lδw : length δw = n) by (unfold δw; rewrite vscale_length, vsub_length; lia).
  assert (EW : W = opening F Gs Hs w δw rw).
  { transitivity (gmul i (gadd (gadd V (gmul x1 W)) (gopp (gadd V (gmul x2 W))))).
    - transitivity (gmul (i * (x1 - x2)) W); [rewrite Hi, gmul_1; done|module].
    - rewrite E1, E2. unfold opening, w, δw, rw. rewrite !msm_vscale, !msm_vsub by lia. module. }
  set (v := vsub a1 (vscale x1 w)). set (δ := vsub d1 (vscale x1 δw)). set (rv := ρ1 - x1 * rw).
  assert (Lv : length v = n) by (unfold v; rewrite vsub_length; rewrite ?vscale_length; lia).
  assert (Lδ : length δ = n) by (unfold δ; rewrite vsub_length; rewrite ?vscale_length; lia).
  assert (EV : V = opening F Gs Hs v δ rv).
  { transitivity (gadd (gadd V (gmul x1 W)) (gopp (gmul x1 W))); [module|]. rewrite E1, EW.
    unfold opening, v, δ, rv. rewrite !msm_vsub, !msm_vscale by (rewrite ?vscale_length; lia). module. }
  exists rv, v, δ. split; [done|]. split; [done|]. split; [rewrite EV; unfold opening; module|].
  assert (Hq : forall x, x ∈ [x1; x2; x3] -> x * x * dot w δw + x * (dot v δw + dot w (vadd b δ) - c) + dot v (vadd b δ) = 0).
  { intros x Hx. destruct (Hop x Hx) as (ρ & a & d & La & Ld & E & Ec).
    assert (E' : opening F Gs Hs a d ρ = opening F Gs Hs (vadd v (vscale x w)) (vadd δ (vscale x δw)) (rv + x * rw)).
    { rewrite <- E, EV, EW. unfold opening. rewrite !msm_vadd, !msm_vscale by (rewrite ?vscale_length; lia). module. }
    apply opening_inj in E'; [|exact HF|rewrite ?vadd_length; rewrite ?vscale_length; lia..]. destruct E' as (-> & -> & _).
    rewrite <- vadd_assoc in Ec. rewrite dot_vadd_r in Ec by (rewrite ?vscale_length, ?vadd_length; rewrite ?vscale_length; lia).
    rewrite !dot_vadd_l in Ec by (rewrite ?vscale_length; lia). rewrite ?dot_vscale_l, ?dot_vscale_r, ?dot_vscale_l in Ec.
    match type of Ec with ?l = _ => assert (H0 : l - c * x = 0) by (rewrite Ec; ring) end. rewrite <- H0. ring. }
  apply (quad_vanishes _ _ _ [x1; x2; x3] eq_refl Dxs Hq).
Qed.

(** If V is known to be a commitment to v, then v sums up. *)
Theorem C69_committed_sum : forall (M : Grp) k (U F : M) Gs Hs V r v,
  length Gs = (2 ^ k)%nat -> length Hs = (2 ^ k)%nat -> indep U Gs Hs -> indep F Gs Hs ->
  sum_answered k U F Gs Hs (ones (2 ^ k - 1)%nat ++ [zopp 1]) V ->
  length v = (2 ^ k)%nat -> V = gadd (gmul r F) (msm v Gs) -> sums_up v.
Proof.
  intros M k U F Gs Hs V r v LG LH HU HF HA Lv EV. pose proof (pow2_pos k) as Hk. fold (sum_b (2 ^ k)) in HA.
  destruct (C69_special_soundness M k U F Gs Hs (sum_b (2 ^ k)) V) as (r' & v' & δ & Lv' & Lδ & EV' & E);
    [done|done|apply sum_b_length; lia|done..|].
  assert (Eo : opening F Gs Hs v (zeros (2 ^ k)) r = opening F Gs Hs v' δ r').
  { transitivity V; [rewrite EV|rewrite EV']; unfold opening; rewrite ?msm_zeros; module. }
  apply opening_inj in Eo; [|exact HF|rewrite ?zeros_length; lia..]. destruct Eo as (<- & <- & _).
  apply (sums_up_dot v k Lv). rewrite <- E. rewrite dot_vadd_r, dot_zeros_r by (rewrite sum_b_length, zeros_length; lia). ring.
Qed.
(** Together with a range proof for the same V: the values are below 2^63, and the last one is the sum of the others as integers. *)
Definition int_sum (u : list Zr) : Z := foldr Z.add 0%Z (zv <$> u).
Lemma int_sum_bound u : Forall in_range u -> (0 <= int_sum u <= Z.of_nat (length u) * 2 ^ 63)%Z.
Proof.
  induction 1 as [|x u Hx H IH]; [cbn; lia|]. unfold int_sum in *. cbn [fmap list_fmap foldr length]. unfold in_range in Hx.
  pose proof (zv_range x). rewrite Nat2Z.inj_succ. generalize dependent (foldr Z.add 0%Z (zv <$> u)). intros z IH.
  generalize dependent (zv x). intros y Hy. change (2 ^ 63)%Z with 9223372036854775808%Z in *. intros ?. lia.
Qed.
Lemma zsum_int u : zsum u = zr (int_sum u).
Proof.
  unfold int_sum. induction u as [|x u IH]; [done|]. cbn [fmap list_fmap foldr zsum]. rewrite IH, zr_add, zr_zv. done.
Qed.
Theorem C69_range_and_sum : forall (M : Grp) k (U F G H : M) Gs Hs Fs W Q x1 x2 (U' : M) Hs' V,
  length Gs = (2 ^ k)%nat -> length Hs = (2 ^ k * 64)%nat -> length Fs = (2 ^ k * 64)%nat -> length Hs' = (2 ^ k)%nat -> (k < 64)%nat ->
  indep1 Gs -> indep F Hs Fs -> indep U Hs Fs -> indep1 [G; H] -> indep U' Gs Hs' -> indep F Gs Hs' -> x1 <> x2 ->
  range_conversations k U F G H Gs Hs Fs V W Q x1 -> range_conversations k U F G H Gs Hs Fs V W Q x2 ->
  sum_answered k U' F Gs Hs' (ones (2 ^ k - 1)%nat ++ [zopp 1]) V ->
  exists r u s, V = gadd (gmul r F) (msm (u ++ [s]) Gs) /\ Forall in_range (u ++ [s]) /\ zv s = int_sum u.
Proof.
  intros M k U F G H Gs Hs Fs W Q x1 x2 U' Hs' V LG LH LF LH' Hk I1 I2 I3 I4 I5 I6 Hx R1 R2 S.
  destruct (C65_special_soundness M k U F G H Gs Hs Fs V W Q x1 x2) as (r0 & v & Lv & EV & Hr); [done..|].
  destruct (C69_committed_sum M k U' F Gs Hs' V r0 v) as (u & ->); [done..|].
  exists r0, u, (zsum u). split; [exact EV|]. split; [exact Hr|]. apply Forall_app in Hr. destruct Hr as [Hr _].
  rewrite zsum_int, zv_zr. apply Z.mod_small. pose proof (int_sum_bound u Hr) as Hb. split; [lia|].
  rewrite app_length in Lv. cbn in Lv. assert (Hl : (Z.of_nat (length u) < 2 ^ 64)%Z).
  { assert (Z.of_nat (length u) < Z.of_nat (2 ^ k))%Z by lia. rewrite Nat2Z.inj_pow in *. change (Z.of_nat 2) with 2%Z in *.
    assert (2 ^ Z.of_nat k <= 2 ^ 64)%Z by (apply Z.pow_le_mono_r; lia). lia. }
  assert (2 ^ 64 * 2 ^ 63 < r)%Z by reflexivity. nia.
Qed.

(** The honest prover can answer every x, and so can the prover of a V with a component in Hs: the argument alone does not
    exclude such V. *)
Theorem C69_honest_conversations : forall (M : Grp) k (U F : M) Gs Hs b r v δ w ω,
  length Gs = (2 ^ k)%nat -> length Hs = (2 ^ k)%nat -> length b = (2 ^ k)%nat ->
  length v = (2 ^ k)%nat -> length δ = (2 ^ k)%nat -> length w = (2 ^ k)%nat -> dot v (vadd b δ) = 0 ->
  forall x, sum_conversations k U F Gs Hs b (gadd (gadd (gmul r F) (msm v Gs)) (msm δ Hs)) (gadd (gmul ω F) (msm w Gs)) (dot w (vadd b δ)) x.
Proof.
  intros M k U F Gs Hs b r v δ w ω LG LH Lb Lv Lδ Lw E x. set (a := vadd v (vscale x w)). set (b' := vadd b δ).
  assert (La : length a = (2 ^ k)%nat) by (unfold a; rewrite vadd_length; rewrite ?vscale_length; lia).
  assert (Lb' : length b' = (2 ^ k)%nat) by (unfold b'; rewrite vadd_length; lia).
  assert (Ed : dot a b' = dot w b' * x).
  { unfold a. rewrite dot_vadd_l, dot_vscale_l by (rewrite vscale_length; lia). unfold b' at 1. rewrite E. ring. }
  destruct (honest_tree k (gmul (zr 1) U) Gs Hs a b' La Lb' LG LH) as [t Ht].
  destruct (honest_tree k (gmul (zr 2) U) Gs Hs a b' La Lb' LG LH) as [t' Ht'].
  exists (- (r + x * ω)), (zr 1), (zr 2), t, t'. split; [apply small_neq; lia|]. split; [apply (small_neq 1 0); lia|]. split; [apply (small_neq 2 0); lia|].
  assert (EP : forall s, gadd (sum_point F Hs b (gadd (gadd (gmul r F) (msm v Gs)) (msm δ Hs)) (gadd (gmul ω F) (msm w Gs)) x (- (r + x * ω)))
    (gmul (s * (dot w b' * x)) U) = opening (gmul s U) Gs Hs a b' (dot a b')).
  { intros s. rewrite Ed. generalize (dot w b'). intros c. unfold sum_point, opening, a, b'. rewrite !msm_vadd, msm_vscale by (rewrite ?vscale_length; lia). module. }
  split; rewrite EP; done.
Qed.
Corollary C69_honest_answers : forall (M : Grp) k (U F : M) Gs Hs r v,
  length Gs = (2 ^ k)%nat -> length Hs = (2 ^ k)%nat -> length v = (2 ^ k)%nat -> sums_up v ->
  sum_answered k U F Gs Hs (ones (2 ^ k - 1)%nat ++ [zopp 1]) (gadd (gmul r F) (msm v Gs)).
Proof.
  intros M k U F Gs Hs r v LG LH Lv Hs'. pose proof (pow2_pos k) as Hk. fold (sum_b (2 ^ k)).
  assert (Lb : length (sum_b (2 ^ k)) = (2 ^ k)%nat) by (apply sum_b_length; lia).
  eexists _, _, (zr <$> [1; 2; 3]%Z). split; [done|]. split; [nodup_small|]. intros x _.
  replace (gadd (gmul r F) (msm v Gs)) with (gadd (gadd (gmul r F) (msm v Gs)) (msm (zeros (2 ^ k)) Hs)) by (rewrite msm_zeros, gadd_0_r; done).
  apply (C69_honest_conversations M k U F Gs Hs (sum_b (2 ^ k)) r v (zeros (2 ^ k)) (zeros (2 ^ k)) 0); try done; try apply zeros_length.
  rewrite dot_vadd_r, dot_zeros_r by (rewrite zeros_length; lia). apply (sums_up_dot v k Lv) in Hs'. rewrite Hs'. ring.
Qed.
(** The code: Verify accepts exactly the conversations with the hash challenges. *)
Theorem C69_acceptance : forall (C : Curve) (pp : sumPP C) k p V,
  sum_params k pp -> length (ipp_LRs (sm_π p)) = (2 * k)%nat ->
  let x := fe (sha256 C (Zr_Bytes (sm_c p) ++ enc1 C V ++ enc1 C (sm_W p))) in
  let P := sum_point (sp_F pp) (sp_H pp) (ones (2 ^ k - 1)%nat ++ [zopp 1]) V (sm_W p) x (sm_ρ p) in
  let s := sum_first_challenge pp in
  sum_Verify p pp V = Ret nil_error <->
  run_accepts (sum_challenges pp p) (gmul s (sp_U pp)) (sp_Gs pp) (sp_H pp) (gadd P (gmul (s * (sm_c p * x)) (sp_U pp)))
    (ipp_LRs (sm_π p)) (ipp_a (sm_π p)) (ipp_b (sm_π p)).
Proof.
  intros C pp k p V (HG & HH & Hb & HB) HL x P s. rewrite sum_verify_spec by lia.
  rewrite (C16_verifier_runs C (sum_ipa pp) k) by done. cbn [ipp_LRs ipp_a ipp_b ipp_P ipp_C]. unfold ipa_challenges. cbn [ipp_LRs].
  unfold sum_P. rewrite HB, Hb. done.
Qed.
(** So Verify accepts a V whose vector does not sum up if V has a component in the generators H: the prover runs the inner-product prover
    of package bp on v and b+δ, for any v and δ with v·(b+δ) = 0, and sends W = 0, c = 0. *)
Theorem C69_hidden_component : forall (C : Curve) (pp : sumPP C) k r v δ,
  sum_params k pp -> length v = (2 ^ k)%nat -> length δ = (2 ^ k)%nat ->
  let b' := vadd (ones (2 ^ k - 1)%nat ++ [zopp 1]) δ in dot v b' = 0 ->
  exists ipaPP arg π, RecomputeDigest (MkBpPP [] (sp_Gs pp) (sp_H pp) (sp_U pp)) = Ret ipaPP /\
    NewInnerProdArgument ipaPP v b' = Ret arg /\ IPA_Prove arg = Ret π /\
    let p := MkSumProof gzero 0 (- r) π in
    (Forall (fun x => x <> 0) (sum_challenges pp p) ->
     sum_Verify p pp (gadd (commit_sum pp v r) (msm δ (sp_H pp))) = Ret nil_error).
Proof.
  intros C pp k r v δ (HG & HH & Hb & HB) Lv Lδ b' E. pose proof (pow2_pos k) as Hk. fold (sum_b (2 ^ k)) in b', Hb.
  assert (Lb : length (sum_b (2 ^ k)) = (2 ^ k)%nat) by (apply sum_b_length; lia).
  assert (Lb' : length b' = (2 ^ k)%nat) by (unfold b'; rewrite vadd_length; lia).
  set (V := gadd (commit_sum pp v r) (msm δ (sp_H pp))).
  set (pf := fun π : IPProof C => MkSumProof gzero 0 (- r) π).
  set (P0 := gadd (msm v (bp_G (sum_ipa pp))) (msm b' (bp_H (sum_ipa pp)))).
  destruct (ipa_honest_body_iff k (sum_ipa pp) v b' (dot v b') P0
    (0 * sum_x 0 V gzero) (sum_P pp (pf (MkIPP [] 0 0 gzero 0)) V)) as (LRs & al & be & Hp & HL & Hver); [done..|].
  eexists (sum_ipa pp), _, _. split; [exact (sum_ipaPP_spec pp ltac:(lia))|].
  split; [apply new_ipa_spec; [lia|apply nonempty_len; lia|cbn [sum_ipa bp_G]; lia|cbn [sum_ipa bp_H]; lia]|]. split; [exact Hp|].
  cbv zeta. intros Hnz. destruct (Hver Hnz) as (e & He & Hiff). rewrite sum_verify_spec by lia.
  etransitivity; [exact He|].
  f_equal. apply Hiff. clear He Hiff Hver Hp Hnz. unfold sum_P, pf, ipa_com. cbn [sm_ρ sm_W sm_c sum_ipa bp_G bp_H bp_U].
  rewrite HB, Hb, E, gmul_O. unfold b'. rewrite msm_vadd by lia. fold (sum_ipa pp). generalize (inst_x (sum_ipa pp)) (sum_x 0 V gzero). intros s x.
  unfold V, commit_sum. rewrite zmul_0_l, zmul_0_r, !gmul_0. module.
Qed.

(** ** C70 *)
(** VerifyAggregated is Verify for Σ τ^j·V_j, with τ a hash of V. *)
Theorem C70_acceptance : forall (C : Curve) (pp : sumPP C) p V, V <> [] ->
  sum_VerifyAggregated p pp V = sum_Verify p pp (msm (powers (length V) (fe (sha256 C (concat (enc1 C <$> V))))) V).
Proof.
  intros C pp p V HV. unfold sum_VerifyAggregated. rewrite hvzk_spec. cbn [rbind].
  rewrite mulv_sum by (rewrite ?power_series_length; done). cbn [rbind]. rewrite powers_series. unfold sum_τ.
  replace (G1v_Bytes V) with (concat (enc1 C <$> V)); [done|]. clear. induction V as [|P V IH]; [done|]. cbn. f_equal.
Qed.
Lemma dot_aggr' n v t b : Forall (fun x => length x = n) v -> length t = length v -> dot (aggr n v t) b = dot ((fun x => dot x b) <$> v) t.
Proof.
  intros H. revert t. induction H as [|x v Hx H IH]; intros [|y t] Ht; try (cbn in Ht; lia); [apply dot_zeros_l|].
  change (aggr n (x :: v) (y :: t)) with (vadd (vscale y x) (aggr n v t)).
  rewrite dot_vadd_l by (rewrite vscale_length, aggr_length; done). rewrite dot_vscale_l, IH by (cbn in Ht; lia). cbn. ring.
Qed.
Lemma msm_aggr' {M : Grp} n (F : M) Gs v r t : Forall (fun x => length x = n) v -> length r = length v -> length t = length v ->
  msm t (zip_with (fun x ρ => gadd (gmul ρ F) (msm x Gs)) v r) = gadd (gmul (dot r t) F) (msm (aggr n v t) Gs).
Proof.
  intros H. revert r t. induction H as [|x v Hx H IH]; intros [|ρ r] [|y t] Hr Ht; try done.
  - cbn [zip_with msm dot aggr zip foldr]. rewrite msm_zeros, gmul_0, gadd_0_r. done.
  - cbn [zip_with msm dot]. change (aggr n (x :: v) (y :: t)) with (vadd (vscale y x) (aggr n v t)).
    rewrite IH by (cbn in *; lia). rewrite msm_vadd by (rewrite vscale_length, aggr_length; done). rewrite msm_vscale.
    generalize (dot r t). intros d. module.
Qed.
(** m commitments, m different τ: every committed vector sums up. *)
Theorem C70_special_soundness : forall (M : Grp) k (U F : M) Gs Hs v r τs,
  length Gs = (2 ^ k)%nat -> length Hs = (2 ^ k)%nat -> indep U Gs Hs -> indep F Gs Hs ->
  Forall (fun x => length x = (2 ^ k)%nat) v -> length r = length v -> length τs = length v -> NoDup τs ->
  let V := zip_with (fun x ρ => gadd (gmul ρ F) (msm x Gs)) v r in
  (forall τ, τ ∈ τs -> sum_answered k U F Gs Hs (ones (2 ^ k - 1)%nat ++ [zopp 1]) (msm (powers (length v) τ) V)) ->
  Forall sums_up v.
Proof.
  intros M k U F Gs Hs v r τs LG LH HU HF Lv Lr Lτ Dτ V HA. set (δ := (fun x => dot x (sum_b (2 ^ k))) <$> v).
  assert (Lδ : length δ = length v) by (unfold δ; rewrite fmap_length; done).
  assert (Ez : δ = zeros (length δ)).
  { apply (vanishing_dot δ τs); [lia|done|]. intros τ Hτ. rewrite Lδ. unfold δ.
    assert (Lp : length (powers (length v) τ) = length v) by apply powers_length.
    rewrite <- (dot_aggr' (2 ^ k)) by done. apply (sums_up_dot _ k); [apply aggr_length; done|].
    eapply (C69_committed_sum M k U F Gs Hs _ (dot r (powers (length v) τ))); [done..|apply HA, Hτ|apply aggr_length; done|].
    apply msm_aggr'; done. }
  apply Forall_forall. intros x Hx. rewrite Forall_forall in Lv. apply (sums_up_dot x k (Lv x Hx)).
  apply elem_of_list_lookup in Hx. destruct Hx as [i Hi].
  assert (Hd : δ !! i = Some (dot x (sum_b (2 ^ k)))) by (unfold δ; rewrite list_lookup_fmap, Hi; done).
  rewrite Ez in Hd. apply lookup_replicate in Hd. apply Hd.
Qed.
Lemma aggregated_run {C : Curve} (pp : sumPP C) k v r w r' :
  v <> [] -> Forall (fun x => length x = (2 ^ k)%nat) v -> length r = length v ->
  let V := zip_with (commit_sum pp) v r in let t := powers (length v) (fe (sha256 C (concat (enc1 C <$> V)))) in
  sum_NewAggregatedArgument pp V v r w r' = sum_NewArgument pp (commit_sum pp (aggr (2 ^ k) v t) (dot r t)) (aggr (2 ^ k) v t) (dot r t) w r'.
Proof.
  intros Hne Lv Lr V t. assert (LV : length V = length v) by (unfold V; rewrite zip_with_length; lia).
  assert (HVne : V <> []) by (apply nonempty_len; rewrite LV; destruct v; [done|cbn; lia]).
  assert (Lt : length t = length v) by apply powers_length.
  assert (EV : msm t V = commit_sum pp (aggr (2 ^ k) v t) (dot r t)) by (apply msm_aggr'; done).
  assert (Et : createHVZKChallenge V (length v) = Ret t).
  { rewrite hvzk_spec, powers_series. unfold t, sum_τ. do 4 f_equal. }
  unfold sum_NewAggregatedArgument. rewrite Et. cbn [rbind].
  destruct v as [|v0 v']; [done|]. cbn [idx lookup list_lookup rbind].
  assert (L0 : length v0 = (2 ^ k)%nat) by (apply Forall_cons in Lv; apply Lv). rewrite L0.
  rewrite aggr_spec by done. cbn [rbind]. rewrite vec_innerprod_spec by lia. cbn [rbind].
  rewrite mulv_sum by (done || lia). cbn [rbind]. rewrite EV. done.
Qed.
(** The code: a proof made with NewAggregatedArgument for vectors that do not all sum up is accepted only if the hash τ is one of at most
    m - 1 roots of the polynomial whose coefficients are the differences. *)
Definition imbalance (v : list Zr) : Zr := dot v (ones (length v - 1) ++ [zopp 1]).
Theorem C70_wrong_sums_rejected : forall (C : Curve) (pp : sumPP C) k v r w r' p,
  sum_params k pp -> v <> [] -> Forall (fun x => length x = (2 ^ k)%nat) v -> length r = length v -> length w = (2 ^ k)%nat ->
  let V := zip_with (commit_sum pp) v r in
  sum_NewAggregatedArgument pp V v r w r' = Ret p ->
  Forall (fun x => x <> 0) (sum_challenges pp p) -> sum_first_challenge pp <> 0 -> sp_U pp <> gzero ->
  let τ := fe (sha256 C (concat (enc1 C <$> V))) in
  (sum_VerifyAggregated p pp V = Ret nil_error <-> peval (imbalance <$> v) τ = 0) /\
  (~ Forall sums_up v -> forall τs, NoDup τs -> (forall τ, τ ∈ τs -> peval (imbalance <$> v) τ = 0) -> (length τs < length v)%nat).
Proof.
  intros C pp k v r w r' p Hpp Hne Lv Lr Lw V Hp Hnz Hx HU τ. pose proof (sum_params_wf _ _ Hpp) as Hwf.
  assert (LV : length V = length v) by (unfold V; rewrite zip_with_length; lia).
  assert (HVne : V <> []) by (apply nonempty_len; rewrite LV; destruct v; [done|cbn; lia]).
  assert (Eim : imbalance <$> v = (fun x => dot x (sum_b (2 ^ k))) <$> v).
  { clear -Lv. induction Lv as [|x v Hx Lv IH]; [done|]. cbn [fmap list_fmap]. rewrite IH. f_equal.
    unfold imbalance, sum_b. rewrite Hx. done. }
  split.
  - set (t := powers (length v) τ). assert (Lt : length t = length v) by apply powers_length.
    assert (EV : msm t V = commit_sum pp (aggr (2 ^ k) v t) (dot r t)) by (apply msm_aggr'; done).
    assert (La : length (aggr (2 ^ k) v t) = (2 ^ k)%nat) by (apply aggr_length; done).
    destruct (sum_honest k pp (aggr (2 ^ k) v t) (dot r t) w r' Hwf La Lw) as (p' & Hp' & _ & Hver).
    assert (p = p') as <-.
    { unfold V in Hp. rewrite (aggregated_run pp k) in Hp by done. fold V τ t in Hp. unfold commit_sum in Hp. congruence. }
    rewrite C70_acceptance by done. rewrite LV. fold τ t. rewrite EV. destruct (Hver Hnz) as (e & He & Hiff). unfold commit_sum. rewrite He.
    rewrite Eim, <- dot_powers, fmap_length. fold t. rewrite <- (dot_aggr' (2 ^ k)) by done. split.
    + intros E. inversion E. subst e. destruct Hiff as [Hiff _]. specialize (Hiff eq_refl). apply gmul_eq_0 in Hiff. destruct Hiff as [E'|E']; [|done].
      apply zmul_eq_0 in E'. destruct E' as [E'|E']; [done|exact E'].
    + intros E. f_equal. apply Hiff. rewrite E, zmul_0_r, gmul_0. done.
  - intros Hbad τs Dτ Hτ. destruct (decide (length τs < length v)%nat) as [H|H]; [done|]. exfalso. apply Hbad.
    assert (Hz : Forall (fun c => c = 0) (imbalance <$> v)).
    { apply (poly_roots _ (take (length v) τs)); [rewrite fmap_length, take_length; lia|rewrite <- (take_drop (length v) τs) in Dτ; apply NoDup_app in Dτ; apply Dτ|].
      apply Forall_forall. intros y Hy. apply Hτ. apply elem_of_list_lookup in Hy. destruct Hy as [i Hy].
      apply lookup_take_Some in Hy. apply elem_of_list_lookup. exists i. apply Hy. }
    rewrite Eim in Hz. apply Forall_forall. intros x Hxv. pose proof (proj1 (Forall_forall _ _) Lv) as Lv'. pose proof (proj1 (Forall_forall _ _) Hz) as Hz'.
    apply (sums_up_dot x k (Lv' x Hxv)). apply Hz'. apply elem_of_list_fmap. exists x. done.
Qed.
Print Assumptions C69_special_soundness.
Print Assumptions C69_committed_sum.
Print Assumptions C69_range_and_sum.
Print Assumptions C69_honest_conversations.
Print Assumptions C69_honest_answers.
Print Assumptions C69_acceptance.
Print Assumptions C69_hidden_component.
Print Assumptions C70_acceptance.
Print Assumptions C70_special_soundness.
Print Assumptions C70_wrong_sums_rejected.

(** Concrete cases: the basis of a free module of rank n >= 12 serves as independent generators. *)
Lemma free_indep n (e := fbasis n) i l1 l2 : NoDup (i :: l1 ++ l2) -> Forall (fun j => j < n)%nat (i :: l1 ++ l2) -> indep (e i) (e <$> l1) (e <$> l2).
Proof. intros Hd Hl. apply indep1_indep. rewrite <- fmap_app. exact (fbasis_indep1 n (i :: l1 ++ l2) Hd Hl). Qed.
Example C69_nonvacuous : exists (M : Grp) (U F : M) Gs Hs V,
  length Gs = (2 ^ 2)%nat /\ length Hs = (2 ^ 2)%nat /\ indep U Gs Hs /\ indep F Gs Hs /\
  V = gadd (gmul (zr 9) F) (msm [zr 1; zr 2; zr 3; zr 6] Gs) /\ sum_answered 2 U F Gs Hs (ones (2 ^ 2 - 1)%nat ++ [zopp 1]) V.
Proof.
  assert (Hex : exists n, (12 <= n)%nat) by (exists 12%nat; lia). destruct Hex as [n Hn]. pose (e := fbasis n).
  exists (freeG n), (e 0%nat), (e 1%nat), (e <$> [2; 3; 4; 5]%nat), (e <$> [6; 7; 8; 9]%nat). eexists. split; [done|]. split; [done|].
  split; [|split; [|split; [reflexivity|]]].
  1-2: apply free_indep; [cbn [app]; rewrite !NoDup_cons, !elem_of_cons, !elem_of_nil; split_and!; try apply NoDup_nil_2; lia|repeat constructor; lia].
  apply C69_honest_answers; [done..|]. exists [zr 1; zr 2; zr 3]. rewrite zsum_int. reflexivity.
Qed.
Example C69_hidden_nonvacuous : exists pp : sumPP toy, sum_NewPublicParams 2 = Ret pp /\
  ~ sums_up [zr 1; zr 2] /\ dot [zr 1; zr 2] (vadd (ones (2 ^ 1 - 1)%nat ++ [zopp 1]) [1; 0]) = 0 /\
  exists p, sum_Verify p pp (gadd (commit_sum pp [zr 1; zr 2] (zr 7)) (msm [1; 0] (sp_H pp))) = Ret nil_error.
Proof.
  destruct (C24_generated_params toy 1) as (pp & Hpp & Hwf). exists pp. split; [exact Hpp|]. split; [|assert (E : dot [zr 1; zr 2] (vadd (ones (2 ^ 1 - 1)%nat ++ [zopp 1]) [1; 0]) = 0); [|split; [exact E|]]].
  - intros (u & E). change [zr 1; zr 2] with ([zr 1] ++ [zr 2]) in E. apply app_inj_2 in E; [|done]. destruct E as [<- E]. apply cons_inv in E. destruct E as [E _].
    rewrite zsum_int in E. change (int_sum [zr 1]) with 1%Z in E. revert E. apply small_neq; lia.
  - cbn. change (zr 2) with (zr (1 + 1)). rewrite zr_add. change (zr 1) with 1. ring.
  - destruct (C69_hidden_component toy pp 1 (zr 7) [zr 1; zr 2] [1; 0] Hwf eq_refl eq_refl E) as (ip & arg & π & _ & _ & _ & H).
    eexists. apply H. apply toy_chal.
Qed.
Example C70_nonvacuous : exists (M : Grp) (U F : M) Gs Hs,
  let v := [[zr 1; zr 1]; [zr 5; zr 5]] in let V := zip_with (fun x ρ => gadd (gmul ρ F) (msm x Gs)) v [zr 3; zr 4] in
  length Gs = (2 ^ 1)%nat /\ length Hs = (2 ^ 1)%nat /\ indep U Gs Hs /\ indep F Gs Hs /\ NoDup [zr 1; zr 2] /\
  (forall τ, τ ∈ [zr 1; zr 2] -> sum_answered 1 U F Gs Hs (ones (2 ^ 1 - 1)%nat ++ [zopp 1]) (msm (powers (length v) τ) V)).
Proof.
  assert (Hex : exists n, (12 <= n)%nat) by (exists 12%nat; lia). destruct Hex as [n Hn]. pose (e := fbasis n).
  exists (freeG n), (e 0%nat), (e 1%nat), (e <$> [2; 3]%nat), (e <$> [4; 5]%nat). cbv zeta. split; [done|]. split; [done|].
  split; [|split; [|split]].
  1-2: apply free_indep; [cbn [app]; rewrite !NoDup_cons, !elem_of_cons, !elem_of_nil; split_and!; try apply NoDup_nil_2; lia|repeat constructor; lia].
  - change (NoDup (zr <$> [1; 2]%Z)). nodup_small.
  - intros τ _. rewrite (msm_aggr' 2) by (repeat constructor || done). apply C69_honest_answers; [done..|].
    assert (S : forall x, sums_up [x; x]) by (intros x; exists [x]; cbn; do 2 f_equal; ring). apply (sums_up_dot _ 1); [apply aggr_length; repeat constructor|]. apply dot_aggr; [repeat constructor|].
    repeat (apply Forall_cons; split; [apply (sums_up_dot [_; _] 1 eq_refl), S|]). constructor.
Qed.
Example C70_rejected_nonvacuous : exists (pp : sumPP toy) p, sum_NewPublicParams 2 = Ret pp /\
  let v := [[zr 1; zr 1]; [zr 5; zr 6]] in let V := zip_with (commit_sum pp) v [zr 9; zr 8] in
  sum_NewAggregatedArgument pp V v [zr 9; zr 8] [zr 4; zr 6] (zr 7) = Ret p /\
  Forall (fun x => x <> 0) (sum_challenges pp p) /\ sum_first_challenge pp <> 0 /\ sp_U pp <> gzero /\ ~ Forall sums_up v.
Proof.
  destruct (sum_new_params (C:=toy) 1) as (pp & Hpp & Hwf & _ & _ & _ & HU). exists pp.
  assert (Lv : Forall (fun x => length x = (2 ^ 1)%nat) [[zr 1; zr 1]; [zr 5; zr 6]]) by (repeat constructor).
  pose proof (aggregated_run pp 1 [[zr 1; zr 1]; [zr 5; zr 6]] [zr 9; zr 8] [zr 4; zr 6] (zr 7) ltac:(done) Lv eq_refl) as Hrun. cbv zeta in Hrun.
  set (t := powers _ _) in Hrun.
  destruct (sum_honest 1 pp (aggr (2 ^ 1) [[zr 1; zr 1]; [zr 5; zr 6]] t) (dot [zr 9; zr 8] t) [zr 4; zr 6] (zr 7) Hwf (aggr_length _ _ _ Lv) eq_refl) as (p & Hp & _ & _).
  exists p. split; [exact Hpp|]. cbv zeta. split; [rewrite Hrun; exact Hp|]. split; [apply toy_chal|]. split; [apply toy_challenge_neq_0|]. split.
  { unfold RandGenVec in HU. cbn [seq fmap list_fmap] in HU. apply cons_inv in HU. destruct HU as [-> _]. apply toy_hash_to_g1_neq_0. }
  intros Hs. apply Forall_cons in Hs. destruct Hs as [_ Hs]. apply Forall_cons in Hs. destruct Hs as [(u & E) _].
  change [zr 5; zr 6] with ([zr 5] ++ [zr 6]) in E. apply app_inj_2 in E; [|done]. destruct E as [<- E]. apply cons_inv in E. destruct E as [E _].
  rewrite zsum_int in E. change (int_sum [zr 5]) with 5%Z in E. revert E. apply small_neq; lia.
Qed.
Example C69_range_and_sum_nonvacuous : exists (M : Grp) (U F G H : M) Gs Hs Fs W Q (U' : M) Hs' V,
  length Gs = (2 ^ 1)%nat /\ length Hs = (2 ^ 1 * 64)%nat /\ length Fs = (2 ^ 1 * 64)%nat /\ length Hs' = (2 ^ 1)%nat /\
  indep1 Gs /\ indep F Hs Fs /\ indep U Hs Fs /\ indep1 [G; H] /\ indep U' Gs Hs' /\ indep F Gs Hs' /\
  V = gadd (gmul (zr 11) F) (msm [zr 5; zr 5] Gs) /\
  range_conversations 1 U F G H Gs Hs Fs V W Q (zr 1) /\ range_conversations 1 U F G H Gs Hs Fs V W Q (zr 2) /\
  sum_answered 1 U' F Gs Hs' (ones (2 ^ 1 - 1)%nat ++ [zopp 1]) V.
Proof.
  assert (Hex : exists n, (265 <= n)%nat) by (exists 265%nat; lia). destruct Hex as [n Hn0]. pose (e := fbasis n).
  pose (Gs := e <$> [4; 5]%nat). pose (Hs := e <$> seq 6 128). pose (Fs := e <$> seq 134 128). pose (Hs' := e <$> [262; 263]%nat).
  destruct (C65_honest_conversations (freeG n) 1 (e 0%nat) (e 1%nat) (e 2%nat) (e 3%nat) Gs Hs Fs (zr 11) [zr 5; zr 5] [zr 3; zr 4] (zr 6))
    as (Q & HQ); [lia|done|unfold Hs; rewrite fmap_length, seq_length; done|unfold Fs; rewrite fmap_length, seq_length; done|done|done|
      repeat constructor; apply small_in_range; lia|].
  exists (freeG n), (e 0%nat), (e 1%nat), (e 2%nat), (e 3%nat), Gs, Hs, Fs. eexists _, Q, (e 264%nat), Hs', _.
  assert (Hn : forall i, i ∈ seq 6 128 ++ seq 134 128 -> (6 <= i < n)%nat).
  { intros i Hi. apply elem_of_app in Hi. rewrite !elem_of_seq in Hi. lia. }
  assert (Hd : NoDup (seq 6 128 ++ seq 134 128)).
  { apply NoDup_app. split; [apply NoDup_seq|]. split; [|apply NoDup_seq]. intros i Hi Hj. apply elem_of_seq in Hi, Hj. lia. }
  assert (Hbig : forall i, (i < 6)%nat -> indep (e i) Hs Fs).
  { intros i Hi. apply free_indep; [apply NoDup_cons; split; [intros Hj; apply Hn in Hj; lia|done]|].
    apply Forall_cons. split; [lia|]. apply Forall_forall. intros j Hj. apply Hn in Hj. lia. }
  split; [done|]. split; [unfold Hs; rewrite fmap_length, seq_length; done|]. split; [unfold Fs; rewrite fmap_length, seq_length; done|]. split; [done|].
  split.
  { apply fbasis_indep1; [|repeat constructor; lia]. rewrite !NoDup_cons, !elem_of_cons, !elem_of_nil. split_and!; try apply NoDup_nil_2; lia. }
  split; [apply Hbig; lia|]. split; [apply Hbig; lia|]. split.
  { change (indep1 (fbasis n <$> [2; 3]%nat)). apply fbasis_indep1; [|repeat constructor; lia].
    rewrite !NoDup_cons, !elem_of_cons, !elem_of_nil. split_and!; try apply NoDup_nil_2; lia. }
  split; [|split; [|split; [reflexivity|split; [apply HQ|split; [apply HQ|]]]]].
  1-2: apply free_indep; [cbn [app]; rewrite !NoDup_cons, !elem_of_cons, !elem_of_nil; split_and!; try apply NoDup_nil_2; lia|repeat constructor; lia].
  apply C69_honest_answers; [done..|]. exists [zr 5]. rewrite zsum_int. reflexivity.
Qed.
