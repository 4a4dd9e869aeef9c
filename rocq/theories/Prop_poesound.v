(** Properties C71 and C72: soundness of the equality arguments of package poe (poe/poe.go:71-124 and 308-341): from accepted
    answers to different challenges, openings of both commitments to the same value. *)
From Verif Require Import Extract Poe_facts Prop_poe Prop_pp Prop_ipa Prop_ir Prop_rangesound Prop_sumsound Toy.
Local Open Scope Zr_scope.

(** ** C71: a single equality *)
(** An oracle that answers x when asked for one scalar and t0, t1 when asked for two: the verifier's challenges. *)
Definition answers {C : Curve} (x t0 t1 : Zr) : poeRO C := fun _ _ _ n => Ret (resize n 0 (if Nat.eqb n 1 then [x] else [t0; t1])).
Lemma answers_ok {C : Curve} x t0 t1 : oracle_ok (C:=C) (answers x t0 t1).
Proof. intros gs is d n. eexists. split; [done|]. apply resize_length. Qed.
(** The determinant of two pairs of challenges. *)
Definition det2 (t0 t1 s0 s1 : Zr) : Zr := t0 * s1 - t1 * s0.
(** (p·A - q·B) / d *)
Definition gcramer {M : Grp} (d p q : Zr) (A B : M) : M := gmul (zinv d) (gadd (gmul p A) (gopp (gmul q B))).

Lemma equality_verify_answers {C : Curve} N α (pp : poePP C) V W i j x t0 t1 Υ : pe_PP pp = NewPublicParams N α -> (i < N)%nat -> (j < N)%nat ->
  Equality_Verify (MkEq (answers x t0 t1) pp V W i j) Υ = Ret nil_error <->
  gadd (gmul (α ^ (N - i) * t0) (gadd (gmul x (ep_V Υ)) V)) (gmul (α ^ (N - j) * t1) (gadd (gmul x (ep_W Υ)) W))
     = gadd (ep_Ω Υ) (gmul (ep_C Υ * (t0 + t1) * α ^ (N + 1)) (gen1 C)).
Proof.
  intros Hpp Hi Hj.
  destruct (equality_verify_spec N α (MkEq (answers x t0 t1) pp V W i j) (answers_ok _ _ _) Hpp Hi Hj Υ) as (x' & t0' & t1' & rest & Hx & Ht & err & He & Hiff).
  cbn [eq_RO eq_PP eq_V eq_W eq_I eq_J] in *. unfold answers in Hx, Ht. cbn [resize Nat.eqb] in Hx, Ht.
  assert (x' = x) as -> by congruence. assert (t0' = t0) as -> by congruence. assert (t1' = t1) as -> by congruence.
  rewrite He. unfold g1 in Hiff. rewrite <- Hiff. split; [intros E; congruence|intros ->; done].
Qed.

(** Two accepted responses to two independent challenge pairs, for the same V', W', x and value: openings of both blinded
    commitments to that value. *)
Theorem C71_two_answers : forall (C : Curve) N m α (pp : poePP C) V W i j V' W' c x t0 t1 Ω s0 s1 Ω',
  poe_params N m α pp -> (i < N)%nat -> (j < N)%nat ->
  let d := det2 t0 t1 s0 s1 in d <> 0 ->
  Equality_Verify (MkEq (answers x t0 t1) pp V W i j) (MkEqProof c V' W' Ω) = Ret nil_error ->
  Equality_Verify (MkEq (answers x s0 s1) pp V W i j) (MkEqProof c V' W' Ω') = Ret nil_error ->
  Verify (pe_PP pp) c (gcramer d s1 t1 Ω Ω') (gadd V (gmul x V')) i = Ret nil_error /\
  Verify (pe_PP pp) c (gcramer d t0 s0 Ω' Ω) (gadd W (gmul x W')) j = Ret nil_error.
Proof.
  intros C N m α pp V W i j V' W' c x t0 t1 Ω s0 s1 Ω' (Hpp & _) Hi Hj d Hd H1 H2.
  apply (equality_verify_answers N α pp V W i j _ _ _ _ Hpp Hi Hj) in H1, H2. cbn [ep_V ep_W ep_Ω ep_C] in *. rewrite Hpp, !verify_iff by done.
  revert H1 H2. generalize (α ^ (N - i)) (α ^ (N - j)) (α ^ (N + 1)). intros a b z H1 H2.
  assert (E : Ω = gadd (gadd (gmul (a * t0) (gadd (gmul x V') V)) (gmul (b * t1) (gadd (gmul x W') W))) (gopp (gmul (c * (t0 + t1) * z) (gen1 C)))).
  { rewrite H1. module. }
  assert (E' : Ω' = gadd (gadd (gmul (a * s0) (gadd (gmul x V') V)) (gmul (b * s1) (gadd (gmul x W') W))) (gopp (gmul (c * (s0 + s1) * z) (gen1 C)))).
  { rewrite H2. module. }
  rewrite E, E'. unfold gcramer. assert (Hd' : t0 * s1 - t1 * s0 <> 0) by exact Hd. unfold d, det2. clear d Hd H1 H2 E E'.
  split; module_pre; try ring; field; exact Hd'.
Qed.

(** Openings of V + x·V' and V + x'·V' combine to an opening of V. *)
Lemma open_combine {C : Curve} N α (V V' : G1 C) i x x' c c' π π' : (i < N)%nat -> x <> x' ->
  let pp := NewPublicParams (C:=C) N α in
  Verify pp c π (gadd V (gmul x V')) i = Ret nil_error -> Verify pp c' π' (gadd V (gmul x' V')) i = Ret nil_error ->
  Verify pp (zinv (x' - x) * (x' * c - x * c')) (gcramer (x' - x) x' x π π') V i = Ret nil_error.
Proof.
  intros Hi Hx pp H H'. apply verify_iff in H, H'; [|done..]. apply verify_iff; [done|].
  revert H H'. generalize (α ^ (N - i)) (α ^ (N + 1)). intros a z H H'.
  assert (E : π = gadd (gmul a (gadd V (gmul x V'))) (gopp (gmul (c * z) (gen1 C)))) by (rewrite H; module).
  assert (E' : π' = gadd (gmul a (gadd V (gmul x' V'))) (gopp (gmul (c' * z) (gen1 C)))) by (rewrite H'; module).
  rewrite E, E'. unfold gcramer. assert (Hd : x' - x <> 0) by (intros E0; apply Hx; symmetry; apply zsub_eq_0; exact E0).
  clear H H' E E'. module_pre; try ring; field; exact Hd.
Qed.

(** A prover that has sent V', W' and answers two challenges x, x', each with a value and responses to two independent
    challenge pairs, has openings of V at i and of W at j to one and the same value. *)
Theorem C71_special_soundness : forall (C : Curve) N m α (pp : poePP C) V W i j V' W' x x' c c' t0 t1 s0 s1 t0' t1' s0' s1' Ω1 Ω2 Ω3 Ω4,
  poe_params N m α pp -> (i < N)%nat -> (j < N)%nat -> x <> x' ->
  let d := det2 t0 t1 s0 s1 in let d' := det2 t0' t1' s0' s1' in d <> 0 -> d' <> 0 ->
  Equality_Verify (MkEq (answers x t0 t1) pp V W i j) (MkEqProof c V' W' Ω1) = Ret nil_error ->
  Equality_Verify (MkEq (answers x s0 s1) pp V W i j) (MkEqProof c V' W' Ω2) = Ret nil_error ->
  Equality_Verify (MkEq (answers x' t0' t1') pp V W i j) (MkEqProof c' V' W' Ω3) = Ret nil_error ->
  Equality_Verify (MkEq (answers x' s0' s1') pp V W i j) (MkEqProof c' V' W' Ω4) = Ret nil_error ->
  let value := zinv (x' - x) * (x' * c - x * c') in
  let πV := gcramer (x' - x) x' x (gcramer d s1 t1 Ω1 Ω2) (gcramer d' s1' t1' Ω3 Ω4) in
  let πW := gcramer (x' - x) x' x (gcramer d t0 s0 Ω2 Ω1) (gcramer d' t0' s0' Ω4 Ω3) in
  Verify (pe_PP pp) value πV V i = Ret nil_error /\ Verify (pe_PP pp) value πW W j = Ret nil_error.
Proof.
  intros C N m α pp V W i j V' W' x x' c c' t0 t1 s0 s1 t0' t1' s0' s1' Ω1 Ω2 Ω3 Ω4 Hpp Hi Hj Hx d d' Hd Hd' H1 H2 H3 H4 value πV πW.
  destruct (C71_two_answers C N m α pp V W i j V' W' c x t0 t1 Ω1 s0 s1 Ω2 Hpp Hi Hj Hd H1 H2) as [A1 A2].
  destruct (C71_two_answers C N m α pp V W i j V' W' c' x' t0' t1' Ω3 s0' s1' Ω4 Hpp Hi Hj Hd' H3 H4) as [B1 B2].
  destruct Hpp as (Hpp & _). rewrite Hpp in *.
  split; eapply open_combine; eauto.
Qed.

(** Hence a prover of a false equality finds the power of the trapdoor that the parameters withhold. *)
Theorem C71_equal_or_withheld : forall (C : Curve) N m α (pp : poePP C) v w V W i j vi wj value πV πW πv πw,
  poe_params N m α pp -> (i < N)%nat -> (j < N)%nat ->
  Commit (pe_PP pp) v = Ret V -> Commit (pe_PP pp) w = Ret W ->
  Open (pe_PP pp) i v = Ret (vi, πv) -> Open (pe_PP pp) j w = Ret (wj, πw) ->
  Verify (pe_PP pp) value πV V i = Ret nil_error -> Verify (pe_PP pp) value πW W j = Ret nil_error ->
  v !! i = Some vi /\ w !! j = Some wj /\
  (vi = wj \/
   withheld C N α = gmul (zinv (value - vi)) (gadd πv (gopp πV)) \/
   withheld C N α = gmul (zinv (value - wj)) (gadd πw (gopp πW))).
Proof.
  intros C N m α pp v w V W i j vi wj value πV πW πv πw (Hpp & _) Hi Hj HV HW Ov Ow H1 H2. rewrite Hpp in *.
  assert (HN : (1 <= N)%nat) by lia.
  destruct (commit_inv N α v V HN HV) as [Lv _]. destruct (commit_inv N α w W HN HW) as [Lw _].
  destruct (decide (2 <= N)%nat) as [H2N|H2N].
  2:{ exfalso. assert (N = 1%nat) as -> by lia. assert (i = 0%nat) as -> by lia. clear -Ov Lv. 
      destruct v as [|v0 [|]]; cbn in Lv; try lia. unfold Open in Ov. cbn in Ov. done. }
  destruct (C07_honest_openings_verify C N α v i H2N Lv Hi) as (V0 & vi0 & πv0 & E1 & E2 & E3 & E4).
  destruct (C07_honest_openings_verify C N α w j H2N Lw Hj) as (W0 & wj0 & πw0 & F1 & F2 & F3 & F4).
  assert (V0 = V) as -> by congruence. assert (W0 = W) as -> by congruence.
  assert (vi0 = vi) as -> by congruence. assert (wj0 = wj) as -> by congruence.
  assert (πv0 = πv) as -> by congruence. assert (πw0 = πw) as -> by congruence.
  split; [done|]. split; [done|].
  destruct (decide (vi = value)) as [->|Hv]; [|right; left; apply (C08_position_binding C N α vi value πv πV V i Hi E4 H1); done].
  destruct (decide (wj = value)) as [->|Hw]; [left; done|right; right; apply (C08_position_binding C N α wj value πw πW W j Hj F4 H2); done].
Qed.

(** Nothing above is vacuous: the package's prover gives such answers. Its V', W' do not depend on the challenges, and its value
    only on x. *)
Theorem C71_honest_answers : forall (C : Curve) N m α (pp : poePP C) v w V W i j u η ν,
  poe_params N m α pp -> (i < N - 1)%nat -> (j < N - 1)%nat ->
  Commit (pe_PP pp) v = Ret V -> Commit (pe_PP pp) w = Ret W -> v !! i = w !! j ->
  exists V' W' c, forall x t0 t1, exists Ω,
    let e := MkEq (answers x t0 t1) pp V W i j in
    Equality_Prove e v w u η ν = Ret (MkEqProof (c x) V' W' Ω) /\ Equality_Verify e (MkEqProof (c x) V' W' Ω) = Ret nil_error.
Proof.
  intros C N m α pp v w V W i j u η ν (Hpp & _) Hi Hj HV HW Heq. rewrite Hpp in *. assert (HN : (1 <= N)%nat) by lia.
  destruct (commit_inv N α v V HN HV) as [Lv EV]. destruct (commit_inv N α w W HN HW) as [Lw EW].
  destruct (lookup_lt_is_Some_2 v i ltac:(lia)) as [vi Hvi]. assert (Hwj : w !! j = Some vi) by congruence.
  eexists _, _, (fun x => vi + u * x). intros x t0 t1.
  assert (F : exists Ω, Equality_Prove (MkEq (answers x t0 t1) pp V W i j) v w u η ν =
    Ret (MkEqProof (vi + u * x) (gadd (gmul u (g1 (α ^ (i + 1)))) (gmul ν (g1 (α ^ N)))) (gadd (gmul u (g1 (α ^ (j + 1)))) (gmul η (g1 (α ^ N)))) Ω)).
  { unfold Equality_Prove. cbn [eq_I eq_J eq_PP eq_V eq_W eq_RO]. rewrite (idx_ret _ _ _ Hvi), (idx_ret _ _ _ Hwj). cbn [rbind]. rewrite (proj2 (zeqb_eq vi vi)) by done.
    rewrite Lv, Lw, Nat.eqb_refl, Hpp. rewrite !g1_idx by lia. cbn [rbind].
    assert (En : idxZ (pp_G1s (NewPublicParams N α)) (Z.of_nat N - 1) = Ret (g1 (C:=C) (α ^ N))).
    { unfold idxZ. destruct (Z.ltb_spec (Z.of_nat N - 1) 0); [lia|]. replace (Z.to_nat (Z.of_nat N - 1)) with (N - 1)%nat by lia.
      rewrite g1_idx by lia. do 3 f_equal. lia. }
    rewrite En. cbn [rbind]. rewrite !g1_last by lia. cbn [rbind]. unfold answers. cbn [resize Nat.eqb rbind idx lookup list_lookup].
    rewrite !open_spec by lia. cbn [rbind]. eexists. reflexivity. }
  destruct F as [Ω F]. exists Ω. cbv zeta. split; [exact F|].
  destruct (equality_prove_spec N α (MkEq (answers x t0 t1) pp V W i j) (answers_ok _ _ _) Hpp ltac:(cbn; lia) ltac:(cbn; lia) v w u η ν) as (Υ & E1 & E2);
    [cbn [eq_I eq_J]; first [lia|rewrite !nth_lookup, Hvi, Hwj; done]..|].
  rewrite F in E1. assert (Υ = MkEqProof (vi + u * x) (gadd (gmul u (g1 (α ^ (i + 1)))) (gmul ν (g1 (α ^ N)))) (gadd (gmul u (g1 (α ^ (j + 1)))) (gmul η (g1 (α ^ N)))) Ω) as -> by congruence.
  apply E2; done.
Qed.
Print Assumptions C71_two_answers.
Print Assumptions C71_special_soundness.
Print Assumptions C71_equal_or_withheld.
Print Assumptions C71_honest_answers.
Example C71_nonvacuous : exists (pp : poePP toy) V W V' W' c c' Ω1 Ω2 Ω3 Ω4,
  poe_params 3 1 (zr 7) pp /\ Commit (pe_PP pp) [zr 5; zr 6; zr 8] = Ret V /\ Commit (pe_PP pp) [zr 1; zr 5; zr 2] = Ret W /\
  zr 2 <> zr 3 /\ det2 1 0 0 1 <> 0 /\
  Equality_Verify (MkEq (answers (zr 2) 1 0) pp V W 0 1) (MkEqProof c V' W' Ω1) = Ret nil_error /\
  Equality_Verify (MkEq (answers (zr 2) 0 1) pp V W 0 1) (MkEqProof c V' W' Ω2) = Ret nil_error /\
  Equality_Verify (MkEq (answers (zr 3) 1 0) pp V W 0 1) (MkEqProof c' V' W' Ω3) = Ret nil_error /\
  Equality_Verify (MkEq (answers (zr 3) 0 1) pp V W 0 1) (MkEqProof c' V' W' Ω4) = Ret nil_error.
Proof.
  destruct (C28_generated_params toy 3 1 (zr 7)) as (pp & _ & Hpp). pose proof Hpp as (E & _).
  destruct (C71_honest_answers toy 3 1 (zr 7) pp [zr 5; zr 6; zr 8] [zr 1; zr 5; zr 2] (commitment 3 (zr 7) [zr 5; zr 6; zr 8]) (commitment 3 (zr 7) [zr 1; zr 5; zr 2])
    0 1 (zr 4) (zr 9) (zr 11) Hpp) as (V' & W' & c & H); [lia|lia|rewrite E; apply commit_spec; [done|lia]..|done|].
  destruct (H (zr 2) 1 0) as (Ω1 & _ & H1). destruct (H (zr 2) 0 1) as (Ω2 & _ & H2).
  destruct (H (zr 3) 1 0) as (Ω3 & _ & H3). destruct (H (zr 3) 0 1) as (Ω4 & _ & H4).
  eexists pp, _, _, V', W', _, _, Ω1, Ω2, Ω3, Ω4. split; [exact Hpp|]. split; [rewrite E; apply commit_spec; [done|lia]|]. split; [rewrite E; apply commit_spec; [done|lia]|].
  split; [apply small_neq; lia|]. split; [|split_and!; eassumption].
  unfold det2. intros E0. apply z1_neq_0. rewrite <- E0. ring.
Qed.

(** ** C72: many equalities at once *)
(** Element k of X multiplied by α^(N - I_k). *)
Definition shifted {C : Curve} (N : nat) (α : Zr) (I : list nat) (X : list (G1 C)) : list (G1 C) := zip_with (fun i P => gmul (α ^ (N - i)) P) I X.
(** The verifier's pairing check, as an equation between points: te weighs the blinded commitments V + x·V' at the positions I, and to
    the W + x·W' at J. *)
Definition agg_equation {C : Curve} (N : nat) (α : Zr) (V W V' W' : list (G1 C)) (I J : list nat) (x : Zr) (te to : list Zr) (c : Zr) (Ω : G1 C) : Prop :=
  gadd (msm te (shifted N α I (gvadd V (gvscale x V')))) (msm to (shifted N α J (gvadd W (gvscale x W')))) = gadd Ω (gmul c (withheld C N α)).
(** The point of the inner argument (poe/poe.go:108-112). *)
Definition agg_point {M : Grp} (F : M) (Hs : list M) (U V : M) (x ρ : Zr) (b : list Zr) : M :=
  gadd (gadd (gadd (gmul ρ F) (gmul x U)) V) (msm b Hs).
(** The prover has sent U and V, and answers the challenges te, to, whose sum is b: ρ, c, and trees of the inner argument for the claim c
    and two of its first challenges. *)
Definition agg_conversations {M : Grp} (k : nat) (U0 F : M) (Gs Hs : list M) (U V : M) (x : Zr) (b : list Zr) (c : Zr) : Prop :=
  exists ρ s s' t t', s <> s' /\ s <> 0 /\ s' <> 0 /\
    let P := agg_point F Hs U V x ρ b in
    tree_accepts k (gmul s U0) Gs Hs (gadd P (gmul (s * c) U0)) t /\
    tree_accepts k (gmul s' U0) Gs Hs (gadd P (gmul (s' * c) U0)) t'.
(** An answer to the challenges te, to. *)
Record aggAnswer (C : Curve) : Type := MkAns { an_te : list Zr; an_to : list Zr; an_c : Zr; an_Ω : G1 C }.
Arguments MkAns {C}. Arguments an_te {C}. Arguments an_to {C}. Arguments an_c {C}. Arguments an_Ω {C}.
(** Σ ω_l·v_l *)
Definition comb (n : nat) (ω : list Zr) (v : list (list Zr)) : list Zr := foldr vadd (zeros n) (zip_with vscale ω v).
Definition unit_vec (n j : nat) : list Zr := <[j := 1]> (zeros n).
(** Weights of sum 0 that single out challenge te_j, or to_j, from the challenges answered: they exist when these are affinely independent. *)
Definition picks_te {C : Curve} (n j : nat) (as_ : list (aggAnswer C)) (ω : list Zr) : Prop :=
  length ω = length as_ /\ zsum ω = 0 /\ comb n ω (an_te <$> as_) = unit_vec n j /\ comb n ω (an_to <$> as_) = zeros n.
Definition picks_to {C : Curve} (n j : nat) (as_ : list (aggAnswer C)) (ω : list Zr) : Prop :=
  length ω = length as_ /\ zsum ω = 0 /\ comb n ω (an_te <$> as_) = zeros n /\ comb n ω (an_to <$> as_) = unit_vec n j.

Lemma comb_cons n l ω v vs : comb n (l :: ω) (v :: vs) = vadd (vscale l v) (comb n ω vs).
Proof. done. Qed.
Lemma comb_length n ω vs : Forall (fun v => length v = n) vs -> length (comb n ω vs) = n.
Proof.
  revert ω. induction vs as [|v vs IH]; intros ω H; [unfold comb; rewrite zip_with_nil_r; apply zeros_length|].
  destruct ω as [|l ω]; [apply zeros_length|]. apply Forall_cons in H. destruct H as [Hv H]. rewrite comb_cons.
  assert (Lc : length (comb n ω vs) = n) by (apply IH; done). rewrite vadd_length, vscale_length by (rewrite vscale_length; lia). done.
Qed.
Lemma msm_unit {M : Grp} n j (X : list M) P : length X = n -> X !! j = Some P -> msm (unit_vec n j) X = P.
Proof.
  revert n X. induction j as [|j IH]; intros n [|Q X] HL HX; cbn in HX; try done; destruct n as [|n]; cbn in HL; try lia.
  - assert (Q = P) as -> by congruence. change (unit_vec (S n) 0) with (1 :: zeros n). cbn [msm]. rewrite msm_zeros. rewrite gadd_0_r. apply gmul_1.
  - change (unit_vec (S n) (S j)) with (0 :: unit_vec n j). cbn [msm]. rewrite (IH n X); [|lia|done]. module.
Qed.
Lemma dot_unit n j (a : list Zr) z : length a = n -> a !! j = Some z -> dot a (unit_vec n j) = z.
Proof.
  rewrite dot_comm. revert n a. induction j as [|j IH]; intros n [|y a] HL HX; cbn in HX; try done; destruct n as [|n]; cbn in HL; try lia.
  - assert (y = z) as -> by congruence. change (unit_vec (S n) 0) with (1 :: zeros n). cbn [dot]. rewrite dot_zeros_l. ring.
  - change (unit_vec (S n) (S j)) with (0 :: unit_vec n j). cbn [dot]. rewrite (IH n a); [ring|lia|done].
Qed.

(** The inner argument fixes one vector a, and a constant, for all challenges. *)
Lemma agg_inner (C : Curve) (M : Grp) k (U0 F : M) Gs Hs U V x (as_ : list (aggAnswer C)) :
  length Gs = (2 ^ k)%nat -> length Hs = (2 ^ k)%nat -> indep U0 Gs Hs -> indep F Gs Hs ->
  Forall (fun A => length (an_te A) = (2 ^ k)%nat /\ length (an_to A) = (2 ^ k)%nat /\
    agg_conversations k U0 F Gs Hs U V x (vadd (an_te A) (an_to A)) (an_c A)) as_ ->
  exists a κ, length a = (2 ^ k)%nat /\ Forall (fun A => an_c A = dot a (vadd (an_te A) (an_to A)) + κ) as_.
Proof.
  intros LG LH HU HF H.
  assert (Hone : forall b c, length b = (2 ^ k)%nat -> agg_conversations k U0 F Gs Hs U V x b c ->
    exists a d ρ, length a = (2 ^ k)%nat /\ length d = (2 ^ k)%nat /\ gadd (gmul x U) V = opening F Gs Hs a d ρ /\ c = dot a b + dot a d).
  { intros b c Lb (ρ & s & s' & t & t' & Hss & Hs0 & Hs0' & T & T').
    destruct (C16_two_first_challenges M k U0 Gs Hs (agg_point F Hs U V x ρ b) c s s' t t') as (a & b' & La & Lb' & EP & Ec); try done.
    exists a, (vsub b' b), (zopp ρ). split; [done|]. split; [rewrite vsub_length; lia|]. split.
    - unfold agg_point in EP. unfold opening. rewrite msm_vsub by lia.
      transitivity (gadd (gadd (gadd (gadd (gmul ρ F) (gmul x U)) V) (msm b Hs)) (gadd (gmul (zopp ρ) F) (gopp (msm b Hs)))); [module|].
      rewrite EP. module.
    - rewrite Ec, dot_vsub_r by lia. ring. }
  destruct as_ as [|A0 as_].
  { exists (zeros (2 ^ k)), 0. split; [apply zeros_length|constructor]. }
  apply Forall_cons in H. destruct H as [(Le & Lo & H0) H].
  destruct (Hone (vadd (an_te A0) (an_to A0)) (an_c A0) ltac:(rewrite vadd_length; lia) H0) as (a & d & ρ & La & Ld & E & Ec). exists a, (dot a d). split; [done|].
  apply Forall_cons. split; [done|]. eapply Forall_impl; [exact H|]. intros A (Le' & Lo' & HA).
  destruct (Hone (vadd (an_te A) (an_to A)) (an_c A) ltac:(rewrite vadd_length; lia) HA) as (a' & d' & ρ' & La' & Ld' & E' & Ec').
  rewrite E in E'. apply (opening_inj F Gs Hs a d ρ a' d' ρ') in E'; [|first [done|lia]..]. destruct E' as (-> & -> & ->). exact Ec'.
Qed.

(** Weighing the verifier's equations. *)
Lemma agg_weigh (C : Curve) (n : nat) (X Y : list (G1 C)) (Z : G1 C) a κ (as_ : list (aggAnswer C)) ω :
  length ω = length as_ -> Forall (fun A => length (an_te A) = n /\ length (an_to A) = n /\
    gadd (msm (an_te A) X) (msm (an_to A) Y) = gadd (an_Ω A) (gmul (an_c A) Z) /\ an_c A = dot a (vadd (an_te A) (an_to A)) + κ) as_ ->
  gadd (msm (comb n ω (an_te <$> as_)) X) (msm (comb n ω (an_to <$> as_)) Y) =
  gadd (msm ω (an_Ω <$> as_)) (gmul (dot a (comb n ω (an_te <$> as_)) + dot a (comb n ω (an_to <$> as_)) + zsum ω * κ) Z).
Proof.
  revert ω. induction as_ as [|A as_ IH]; intros [|l ω] HL H; cbn in HL; try lia.
  - unfold comb. cbn. rewrite !msm_zeros, !dot_zeros_r. module.
  - apply Forall_cons in H. destruct H as [(Le & Lo & E & Ec) H]. specialize (IH ω ltac:(lia) H). cbn [fmap list_fmap]. rewrite !comb_cons.
    change (list_fmap ?P ?Q ?f ?l) with (f <$> l).
    assert (F1 : Forall (fun v => length v = n) (an_te <$> as_)) by (apply Forall_fmap; eapply Forall_impl; [exact H|]; cbn; tauto).
    assert (F2 : Forall (fun v => length v = n) (an_to <$> as_)) by (apply Forall_fmap; eapply Forall_impl; [exact H|]; cbn; tauto).
    pose proof (comb_length n ω _ F1) as L1. pose proof (comb_length n ω _ F2) as L2.
    rewrite !msm_vadd, !dot_vadd_r, !msm_vscale, !dot_vscale_r by (rewrite vscale_length; lia). cbn [msm zsum].
    rewrite dot_vadd_r in Ec by lia. rewrite Ec in E. revert IH E.
    
    generalize (msm (comb n ω (an_te <$> as_)) X) (msm (comb n ω (an_to <$> as_)) Y) (dot a (comb n ω (an_te <$> as_))) (dot a (comb n ω (an_to <$> as_))) (zsum ω).
    generalize (msm (an_te A) X) (msm (an_to A) Y) (dot a (an_te A)) (dot a (an_to A)) (msm ω (an_Ω <$> as_)) (an_Ω A). clear.
    intros P1 P2 d1 d2 Ωs Ω Q1 Q2 e1 e2 z IH E.
    transitivity (gadd (gmul l (gadd P1 P2)) (gadd Q1 Q2)); [module|]. rewrite IH, E. module.
Qed.

(** Answers to the same first challenge x: after x the prover sends U, Vc once, then answers the challenges listed. *)
Definition agg_answered {C : Curve} {M : Grp} (N : nat) (α : Zr) (k : nat) (U0 F : M) (Gs Hs : list M)
    (V W V' W' : list (G1 C)) (I J : list nat) (x : Zr) (as_ : list (aggAnswer C)) : Prop :=
  exists U Vc, Forall (fun A => length (an_te A) = (2 ^ k)%nat /\ length (an_to A) = (2 ^ k)%nat /\
    agg_equation N α V W V' W' I J x (an_te A) (an_to A) (an_c A) (an_Ω A) /\
    agg_conversations k U0 F Gs Hs U Vc x (vadd (an_te A) (an_to A)) (an_c A)) as_.

Lemma shifted_lookup {C : Curve} N α I (X X' : list (G1 C)) x j i P P' : I !! j = Some i -> X !! j = Some P -> X' !! j = Some P' ->
  shifted N α I (gvadd X (gvscale x X')) !! j = Some (gmul (α ^ (N - i)) (gadd P (gmul x P'))).
Proof.
  intros HI HX HX'. unfold shifted. rewrite lookup_zip_with, HI. cbn. unfold gvadd. rewrite lookup_zip_with, HX. cbn.
  unfold gvscale. rewrite list_lookup_fmap, HX'. done.
Qed.
Lemma shifted_length {C : Curve} N α I (X X' : list (G1 C)) x n : length I = n -> length X = n -> length X' = n ->
  length (shifted N α I (gvadd X (gvscale x X'))) = n.
Proof. intros HI HX HX'. unfold shifted. rewrite zip_with_length, gvadd_length; [lia|]. rewrite gvscale_length. lia. Qed.

(** The generators of the inner argument are independent in a group M; the pairing side lives in the curve. The two sides share only scalars. *)
Theorem C72_same_first_challenge : forall (C : Curve) (M : Grp) N α k (U0 F : M) Gs Hs (V W V' W' : list (G1 C)) I J x as_,
  length Gs = (2 ^ k)%nat -> length Hs = (2 ^ k)%nat -> indep U0 Gs Hs -> indep F Gs Hs ->
  Forall (fun l => length l = (2 ^ k)%nat) [V; W; V'; W'] -> Forall (fun l => length l = (2 ^ k)%nat /\ Forall (fun i => i < N)%nat l) [I; J] ->
  agg_answered N α k U0 F Gs Hs V W V' W' I J x as_ ->
  let pp := NewPublicParams (C:=C) N α in
  exists a, length a = (2 ^ k)%nat /\ forall j y, a !! j = Some y ->
    (forall i P P' ω, I !! j = Some i -> V !! j = Some P -> V' !! j = Some P' -> picks_te (2 ^ k) j as_ ω ->
      Verify pp y (msm ω (an_Ω <$> as_)) (gadd P (gmul x P')) i = Ret nil_error) /\
    (forall i P P' ω, J !! j = Some i -> W !! j = Some P -> W' !! j = Some P' -> picks_to (2 ^ k) j as_ ω ->
      Verify pp y (msm ω (an_Ω <$> as_)) (gadd P (gmul x P')) i = Ret nil_error).
Proof.
  intros C M N α k U0 F Gs Hs V W V' W' I J x as_ LG LH HU HF HL HIJ (U & Vc & Has) pp.
  rewrite !Forall_cons in HL. destruct HL as (LV & LW & LV' & LW' & _). rewrite !Forall_cons in HIJ. destruct HIJ as ((LI & HI) & (LJ & HJ) & _).
  destruct (agg_inner C M k U0 F Gs Hs U Vc x as_ LG LH HU HF) as (a & κ & La & Ha).
  { eapply Forall_impl; [exact Has|]. cbn. tauto. }
  exists a. split; [done|]. intros j y Hy.
  set (X := shifted N α I (gvadd V (gvscale x V'))). set (Y := shifted N α J (gvadd W (gvscale x W'))).
  assert (LX : length X = (2 ^ k)%nat) by (apply shifted_length; done). assert (LY : length Y = (2 ^ k)%nat) by (apply shifted_length; done).
  assert (Hw : forall ω, length ω = length as_ -> _) by (intros ω Hω; refine (agg_weigh C (2 ^ k) X Y (withheld C N α) a κ as_ ω Hω _);
    apply Forall_forall; intros A HA; destruct (proj1 (Forall_forall _ _) Has A HA) as (L1 & L2 & E & _); pose proof (proj1 (Forall_forall _ _) Ha A HA) as Ec; split_and!; [exact L1|exact L2|exact E|exact Ec]).
  split; intros i P P' ω Hi HP HP' (Lω & Hz & E1 & E2); specialize (Hw ω Lω); rewrite E1, E2, Hz in Hw; rewrite msm_zeros, dot_zeros_r in Hw.
  - rewrite (msm_unit _ _ X (gmul (α ^ (N - i)) (gadd P (gmul x P')))) in Hw; [|done|apply shifted_lookup; done].
    rewrite (dot_unit _ _ a y) in Hw by done. apply verify_iff; [eapply (Forall_lookup_1 _ _ _ _ HI); exact Hi|].
    rewrite gadd_0_r in Hw. rewrite Hw. unfold withheld. generalize (α ^ (N + 1)). intros z. module.
  - rewrite (msm_unit _ _ Y (gmul (α ^ (N - i)) (gadd P (gmul x P')))) in Hw; [|done|apply shifted_lookup; done].
    rewrite (dot_unit _ _ a y) in Hw by done. apply verify_iff; [eapply (Forall_lookup_1 _ _ _ _ HJ); exact Hi|].
    rewrite gadd_0_l in Hw. rewrite Hw. unfold withheld. generalize (α ^ (N + 1)). intros z. module.
Qed.

(** Two first challenges, each with answers to affinely independent second challenges: for every pair, openings of both commitments to the
    same value. *)
Theorem C72_special_soundness : forall (C : Curve) (M : Grp) N α k (U0 F : M) Gs Hs (V W V' W' : list (G1 C)) I J x x' as_ as',
  length Gs = (2 ^ k)%nat -> length Hs = (2 ^ k)%nat -> indep U0 Gs Hs -> indep F Gs Hs ->
  Forall (fun l => length l = (2 ^ k)%nat) [V; W; V'; W'] -> Forall (fun l => length l = (2 ^ k)%nat /\ Forall (fun i => i < N)%nat l) [I; J] ->
  x <> x' ->
  agg_answered N α k U0 F Gs Hs V W V' W' I J x as_ -> agg_answered N α k U0 F Gs Hs V W V' W' I J x' as' ->
  let pp := NewPublicParams (C:=C) N α in
  exists values, length values = (2 ^ k)%nat /\ forall j y, values !! j = Some y ->
    (forall i P ω ω', I !! j = Some i -> V !! j = Some P -> picks_te (2 ^ k) j as_ ω -> picks_te (2 ^ k) j as' ω' ->
      Verify pp y (gcramer (x' - x) x' x (msm ω (an_Ω <$> as_)) (msm ω' (an_Ω <$> as'))) P i = Ret nil_error) /\
    (forall i P ω ω', J !! j = Some i -> W !! j = Some P -> picks_to (2 ^ k) j as_ ω -> picks_to (2 ^ k) j as' ω' ->
      Verify pp y (gcramer (x' - x) x' x (msm ω (an_Ω <$> as_)) (msm ω' (an_Ω <$> as'))) P i = Ret nil_error).
Proof.
  intros C M N α k U0 F Gs Hs V W V' W' I J x x' as_ as' LG LH HU HF HL HIJ Hx H H' pp.
  destruct (C72_same_first_challenge C M N α k U0 F Gs Hs V W V' W' I J x as_) as (a & La & Ha); try done.
  destruct (C72_same_first_challenge C M N α k U0 F Gs Hs V W V' W' I J x' as') as (a' & La' & Ha'); try done.
  exists (zip_with (fun c c' => zinv (x' - x) * (x' * c - x * c')) a a'). split; [rewrite zip_with_length; lia|]. intros j y Hy.
  assert (Hj : (j < 2 ^ k)%nat) by (apply lookup_lt_Some in Hy; rewrite zip_with_length in Hy; lia).
  destruct (lookup_lt_is_Some_2 a j ltac:(lia)) as [c Hc]. destruct (lookup_lt_is_Some_2 a' j ltac:(lia)) as [c' Hc'].
  rewrite lookup_zip_with, Hc in Hy. cbn in Hy. rewrite Hc' in Hy. cbn in Hy. apply (inj Some) in Hy. subst y.
  rewrite !Forall_cons in HL. destruct HL as (LV & LW & LV' & LW' & _). rewrite !Forall_cons in HIJ. destruct HIJ as ((LI & HI) & (LJ & HJ) & _).
  destruct (lookup_lt_is_Some_2 V' j ltac:(lia)) as [PV HPV]. destruct (lookup_lt_is_Some_2 W' j ltac:(lia)) as [PW HPW].
  destruct (Ha j c Hc) as [A1 A2]. destruct (Ha' j c' Hc') as [B1 B2].
  split; intros i P ω ω' Hi HP Hω Hω'.
  - eapply open_combine; [eapply (Forall_lookup_1 _ _ _ _ HI); exact Hi|done|eapply A1; eauto|eapply B1; eauto].
  - eapply open_combine; [eapply (Forall_lookup_1 _ _ _ _ HJ); exact Hi|done|eapply A2; eauto|eapply B2; eauto].
Qed.
Print Assumptions C72_same_first_challenge.
Print Assumptions C72_special_soundness.

(** The code: Verify accepts exactly the answers with the hash challenges. *)
Fixpoint interleave (a b : list Zr) : list Zr := match a, b with x :: a, y :: b => x :: y :: interleave a b | _, _ => [] end.
Lemma interleave_loops a b : length a = length b -> evens_loop (interleave a b) = a /\ odds_loop (interleave a b) = b /\ length (interleave a b) = (2 * length a)%nat.
Proof.
  revert b. induction a as [|x a IH]; intros [|y b] H; cbn in H; try lia; [done|]. destruct (IH b ltac:(lia)) as (E1 & E2 & E3).
  cbn [interleave evens_loop odds_loop length]. rewrite E1, E2, E3. split_and!; [done|done|lia].
Qed.
Lemma pairsum_shifted {C : Curve} N α te I (X : list (G1 C)) : length te = length I -> length X = length I ->
  pairsum (gvmul te X) ((fun i => gmul (α ^ (N - i)) (gen2 C)) <$> I) = pair C (msm te (shifted N α I X)) (gen2 C).
Proof.
  revert te X. induction I as [|i I IH]; intros [|y te] [|P X] H1 H2; cbn in H1, H2; try lia.
  - cbn. symmetry. apply pair_0_l.
  - unfold gvmul, shifted in *. cbn [fmap list_fmap zip_with pairsum msm]. change (list_fmap ?A ?B ?f I) with (f <$> I). rewrite IH by lia.
    rewrite pair_mul_r, pair_add_l, !pair_mul_l, <- !gmul_mul. f_equal. f_equal. ring.
Qed.
Lemma poe_g2s_spec {C : Curve} N α I n : length I = n -> Forall (fun i => i < N)%nat I ->
  poe_g2s (C:=C) (NewPublicParams N α) I n = Ret ((fun i => gmul (α ^ (N - i)) (gen2 C)) <$> I).
Proof.
  intros <- HI. unfold poe_g2s. apply mapM_items. intros j i Hj. rewrite (idx_ret _ _ _ Hj). cbn [rbind].
  pose proof (Forall_lookup_1 _ _ _ _ HI Hj) as Hi. rewrite <- (g2_at_spec (C:=C) N α i) by exact Hi. unfold g2_at. f_equal; lia.
Qed.
Theorem C72_acceptance : forall (C : Curve) N k α (pp : poePP C) RO (V W : list (G1 C)) I J p x te to,
  poe_params N (2 ^ k) α pp -> length (ipp_LRs (ap_IPP p)) = (2 * k)%nat ->
  Forall (fun l => length l = (2 ^ k)%nat) [V; W; ap_Vaggr p; ap_Waggr p] -> Forall (fun l => length l = (2 ^ k)%nat /\ Forall (fun i => i < N)%nat l) [I; J] ->
  length te = (2 ^ k)%nat -> length to = (2 ^ k)%nat ->
  RO (ap_Vaggr p ++ ap_Waggr p ++ V ++ W) [] (pe_Digest pp) 1%nat = Ret [x] ->
  RO (ap_Vaggr p ++ ap_Waggr p ++ V ++ W ++ [ap_U p; ap_V p]) [] (pe_Digest pp) (2 * 2 ^ k)%nat = Ret (interleave te to) ->
  let P := agg_point (pe_F pp) (pe_H pp) (ap_U p) (ap_V p) x (ap_ρ p) (vadd te to) in
  let U0 := rand_gen "u" 0 in let s := ipa_first_challenge (poe_ipa pp) in
  Equalities_Verify (MkEqs RO pp V W I J) p = Ret nil_error <->
  agg_equation N α V W (ap_Vaggr p) (ap_Waggr p) I J x te to (ap_c p) (ap_Ω p) /\
  run_accepts (eq_challenges pp p) (gmul s U0) (pe_G pp) (pe_H pp) (gadd P (gmul (s * ap_c p) U0)) (ipp_LRs (ap_IPP p)) (ipp_a (ap_IPP p)) (ipp_b (ap_IPP p)).
Proof.
  intros C N k α pp RO V W I J p x te to (Hpp & HG & HH) HL Hl HIJ Lte Lto Hx Ht P U0 s.
  rewrite !Forall_cons in Hl. destruct Hl as (LV & LW & LV' & LW' & _). rewrite !Forall_cons in HIJ. destruct HIJ as ((LI & HI) & (LJ & HJ) & _).
  assert (Hk : (1 <= 2 ^ k)%nat) by (pose proof (Nat.pow_nonzero 2 k); lia).
  assert (HN : (1 <= N)%nat). { destruct I as [|i I]; [cbn in LI; lia|]. apply Forall_cons in HI. lia. }
  destruct (interleave_loops te to ltac:(lia)) as (Ee & Eo & El).
  unfold Equalities_Verify. cbn [es_RO es_PP es_V es_W es_I es_J]. rewrite Hx. cbn [rbind idx lookup list_lookup].
  rewrite LV. rewrite <- !app_assoc, Ht. cbn [rbind]. rewrite Hpp, !poe_g2s_spec by done. cbn [rbind].
  assert (Hev : Nat.even (length (interleave te to)) = true) by (rewrite El; apply Nat.even_spec; exists (length te); lia).
  unfold Vec_Evens, Vec_Odds. rewrite Hev, Ee, Eo. cbn [rbind].
  rewrite !g1v_mul_spec, !g1v_add_spec by (rewrite gvscale_length; lia). cbn [rbind].
  rewrite !g1v_mulv_spec by (rewrite gvadd_length; rewrite ?gvscale_length; lia). cbn [rbind].
  rewrite !g1v_innerprod_spec by (first [apply nonempty_len|idtac]; rewrite gvmul_length, ?fmap_length, ?gvadd_length; rewrite ?gvadd_length, ?gvscale_length; rewrite ?gvscale_length; lia).
  cbn [rbind]. rewrite !pairsum_shifted by (rewrite ?gvadd_length, ?gvscale_length; rewrite ?gvscale_length; lia).
  rewrite g1v_innerprod_1. cbn [rbind]. rewrite g1_idx by lia. cbn [rbind]. rewrite g2_last by lia. cbn [rbind]. rewrite g1v_innerprod_1. cbn [rbind].
  rewrite Nat.sub_0_r, pair_mul_l, <- pair_add_l. change (0 + 1)%nat with 1%nat.
  pose proof (pairing_eq N α (gadd (msm te (shifted N α I (gvadd V (gvscale x (ap_Vaggr p))))) (msm to (shifted N α J (gvadd W (gvscale x (ap_Waggr p)))))) (ap_Ω p) (ap_c p) HN) as Hp.
  assert (Hag : agg_equation N α V W (ap_Vaggr p) (ap_Waggr p) I J x te to (ap_c p) (ap_Ω p) <->
    gadd (msm te (shifted N α I (gvadd V (gvscale x (ap_Vaggr p))))) (msm to (shifted N α J (gvadd W (gvscale x (ap_Waggr p))))) = gadd (ap_Ω p) (g1 (ap_c p * α ^ (N + 1)))).
  { unfold agg_equation, withheld, g1. rewrite gmul_mul. done. }
  rewrite Hag, <- Hp. clear Hag Hp. destruct (geqb _ _); [|split; [done|intros [E _]; done]].
  rewrite vec_add_spec by lia. cbn [rbind]. rewrite mulv_sum by (first [rewrite vadd_length; lia|apply nonempty_len; lia]). cbn [rbind].
  unfold poe_bpPP. cbn [RandGenVec seq fmap list_fmap idx rbind lookup list_lookup].
  unfold RecomputeDigest. rewrite setup_digest_spec by (right; cbn [bp_G bp_H]; lia). cbn [rbind bp_G bp_H bp_U]. fold (poe_ipa pp).
  rewrite (C16_verifier_runs C (poe_ipa pp) k) by done. cbn [ipp_LRs ipp_a ipp_b ipp_P ipp_C]. unfold ipa_challenges. cbn [ipp_LRs].
  split; [intros H; split; [done|exact H]|intros [_ H]; exact H].
Qed.
Print Assumptions C72_acceptance.
(** Concrete case: two pairs, answers for x = 2 and x' = 3 to five challenges each. *)
Lemma agg_answers_exist {C : Curve} {M : Grp} N α k (U0 F : M) Gs Hs (V W V' W' : list (G1 C)) I J x (a : list Zr) (chs : list (list Zr * list Zr)) :
  length Gs = (2 ^ k)%nat -> length Hs = (2 ^ k)%nat -> length a = (2 ^ k)%nat -> Forall (fun ch => length (fst ch) = (2 ^ k)%nat /\ length (snd ch) = (2 ^ k)%nat) chs ->
  exists as_, an_te <$> as_ = fst <$> chs /\ an_to <$> as_ = snd <$> chs /\ agg_answered N α k U0 F Gs Hs V W V' W' I J x as_.
Proof.
  intros LG LH La H. exists ((fun ch : list Zr * list Zr => let c := dot a (vadd (fst ch) (snd ch)) in MkAns (fst ch) (snd ch) c
    (gadd (gadd (msm (fst ch) (shifted N α I (gvadd V (gvscale x V')))) (msm (snd ch) (shifted N α J (gvadd W (gvscale x W'))))) (gopp (gmul c (withheld C N α))))) <$> chs).
  rewrite <- !list_fmap_compose. split; [done|]. split; [done|]. exists gzero, (msm a Gs). apply Forall_fmap. eapply Forall_impl; [exact H|].
  intros [te to] [L1 L2]. cbn [fst snd] in L1, L2. cbn [compose an_te an_to an_c an_Ω fst snd]. split; [done|]. split; [done|]. split.
  - unfold agg_equation. module.
  - assert (Lb : length (vadd te to) = (2 ^ k)%nat) by (rewrite vadd_length; lia). destruct (honest_tree k (gmul 1 U0) Gs Hs a (vadd te to) La Lb LG LH) as [t1 T1].
    destruct (honest_tree k (gmul (zr 2) U0) Gs Hs a (vadd te to) La Lb LG LH) as [t2 T2].
    exists 0, 1, (zr 2), t1, t2. split; [change 1 with (zr 1); apply small_neq; lia|]. split; [apply z1_neq_0|].
    split; [change 0 with (zr 0); apply small_neq; lia|]. cbv zeta.
    assert (E : forall s, gadd (agg_point F Hs gzero (msm a Gs) x 0 (vadd te to)) (gmul (s * dot a (vadd te to)) U0) = opening (gmul s U0) Gs Hs a (vadd te to) (dot a (vadd te to))).
    { intros s. unfold agg_point, opening. generalize (dot a (vadd te to)) (msm a Gs) (msm (vadd te to) Hs). intros z A B. module. }
    rewrite !E. split; [exact T1|exact T2].
Qed.
Lemma toy_picks (as_ : list (aggAnswer toy)) (chs : list (list Zr * list Zr)) : an_te <$> as_ = fst <$> chs -> an_to <$> as_ = snd <$> chs ->
  chs = [([0; 0], [0; 0]); ([1; 0], [0; 0]); ([0; 1], [0; 0]); ([0; 0], [1; 0]); ([0; 0], [0; 1])] ->
  forall j, (j < 2)%nat -> (exists ω, picks_te 2 j as_ ω) /\ (exists ω, picks_to 2 j as_ ω).
Proof.
  intros E1 E2 -> j Hj. cbn [fmap list_fmap fst snd] in E1, E2. pose proof (f_equal length E1) as HL. rewrite fmap_length in HL. cbn [length] in HL.
  assert (R : forall a b a' b' : Zr, a = a' -> b = b' -> [a; b] = [a'; b']) by (intros; subst; done).
  destruct j as [|[|j]]; [| |lia].
  - split; [exists [zopp 1; 1; 0; 0; 0]|exists [zopp 1; 0; 0; 1; 0]]; (split; [cbn [length]; lia|]); (split; [cbn; ring|]); rewrite E1, E2; split; cbn; apply R; ring.
  - split; [exists [zopp 1; 0; 1; 0; 0]|exists [zopp 1; 0; 0; 0; 1]]; (split; [cbn [length]; lia|]); (split; [cbn; ring|]); rewrite E1, E2; split; cbn; apply R; ring.
Qed.
Example C72_nonvacuous : exists (M : Grp) (U0 F : M) Gs Hs V' W' as_ as',
  let V := commitment (C:=toy) 3 (zr 7) <$> [[zr 5; zr 6; zr 8]; [zr 2; zr 3; zr 4]] in
  let W := commitment (C:=toy) 3 (zr 7) <$> [[zr 1; zr 5; zr 2]; [zr 9; zr 2; zr 0]] in
  length Gs = (2 ^ 1)%nat /\ length Hs = (2 ^ 1)%nat /\ indep U0 Gs Hs /\ indep F Gs Hs /\ length V' = 2%nat /\ length W' = 2%nat /\ zr 2 <> zr 3 /\
  agg_answered 3 (zr 7) 1 U0 F Gs Hs V W V' W' [0; 0]%nat [1; 1]%nat (zr 2) as_ /\ agg_answered 3 (zr 7) 1 U0 F Gs Hs V W V' W' [0; 0]%nat [1; 1]%nat (zr 3) as' /\
  forall j, (j < 2)%nat -> ((exists ω, picks_te 2 j as_ ω) /\ (exists ω, picks_to 2 j as_ ω)) /\ ((exists ω, picks_te 2 j as' ω) /\ (exists ω, picks_to 2 j as' ω)).
Proof.
  assert (Hex : exists n, (12 <= n)%nat) by (exists 12%nat; lia). destruct Hex as [n Hn]. pose (e := fbasis n).
  set (chs := [([0; 0], [0; 0]); ([1; 0], [0; 0]); ([0; 1], [0; 0]); ([0; 0], [1; 0]); ([0; 0], [0; 1])]).
  assert (Hchs : Forall (fun ch : list Zr * list Zr => length (fst ch) = (2 ^ 1)%nat /\ length (snd ch) = (2 ^ 1)%nat) chs) by (repeat constructor).
  set (V := commitment (C:=toy) 3 (zr 7) <$> [[zr 5; zr 6; zr 8]; [zr 2; zr 3; zr 4]]). set (W := commitment (C:=toy) 3 (zr 7) <$> [[zr 1; zr 5; zr 2]; [zr 9; zr 2; zr 0]]).
  pose (Z := [gzero; gzero] : list (G1 toy)).
  destruct (agg_answers_exist 3 (zr 7) 1 (e 0%nat) (e 1%nat) (e <$> [2; 3]%nat) (e <$> [4; 5]%nat) V W Z Z [0; 0]%nat [1; 1]%nat (zr 2) [zr 5; zr 2] chs) as (a1 & A1 & A2 & A3); [done..|].
  destruct (agg_answers_exist 3 (zr 7) 1 (e 0%nat) (e 1%nat) (e <$> [2; 3]%nat) (e <$> [4; 5]%nat) V W Z Z [0; 0]%nat [1; 1]%nat (zr 3) [zr 5; zr 2] chs) as (a2 & B1 & B2 & B3); [done..|].
  exists (freeG n), (e 0%nat), (e 1%nat), (e <$> [2; 3]%nat), (e <$> [4; 5]%nat), Z, Z, a1, a2. cbv zeta. split; [done|]. split; [done|].
  split; [|split].
  1-2: apply free_indep; [cbn [app]; rewrite !NoDup_cons, !elem_of_cons, !elem_of_nil; split_and!; try apply NoDup_nil_2; lia|repeat constructor; lia].
  split; [done|]. split; [done|]. split; [apply small_neq; lia|]. split; [exact A3|]. split; [exact B3|].
  intros j Hj. split; eapply toy_picks; eauto; reflexivity.
Qed.
