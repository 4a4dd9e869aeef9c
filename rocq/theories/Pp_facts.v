(** Facts about the model of pp/pointproofs.go. *)
From Verif Require Export Model_pp.
Local Open Scope Zr_scope.

(** α^a, α^(a+1), …, n entries *)
Definition pows (α : Zr) (a n : nat) : list Zr := zpow α <$> seq a n.
Lemma pows_length α a n : length (pows α a n) = n.
Proof. unfold pows. rewrite fmap_length, seq_length. done. Qed.
Lemma pows_app α a n m : pows α a (n + m) = pows α a n ++ pows α (a + n) m.
Proof. unfold pows. rewrite seq_app, fmap_app. done. Qed.
Lemma pows_shift α k a n : vscale (α ^ k) (pows α a n) = pows α (k + a) n.
Proof.
  unfold vscale, pows. rewrite <- list_fmap_compose. revert a. induction n as [|n IH]; intros a; [done|].
  cbn [seq fmap list_fmap]. f_equal; [cbn; rewrite zpow_add; done|]. rewrite IH. f_equal. f_equal. lia.
Qed.

Lemma filter_seq_skip i N : (i < N)%nat ->
  filter (fun j => j <> (i + 1)%nat) (seq 1 N) = seq 1 i ++ seq (i + 2) (N - i - 1).
Proof.
  intros H. replace N with (i + (1 + (N - i - 1)))%nat at 1 by lia. rewrite !seq_app, !filter_app.
  assert (F : forall a n, (i + 1 < a \/ a + n <= i + 1)%nat -> filter (fun j => j <> (i + 1)%nat) (seq a n) = seq a n).
  { intros a n; revert a; induction n as [|n IH]; intros a Ha; [done|]. cbn [seq]. rewrite filter_cons_True by lia.
    f_equal. apply IH. lia. }
  rewrite (F 1%nat i) by lia. cbn [seq]. rewrite filter_cons_False by lia. cbn. f_equal.
  replace (1 + i + 1)%nat with (i + 2)%nat by lia. rewrite F by lia. f_equal. lia.
Qed.

Section PP.
  Context {C : Curve}.

  Section Setup.
  Context (N : nat) (α : Zr).
  Let pp := NewPublicParams (C:=C) N α.

  Lemma pp_G1s_lookup_lo k : (k < N)%nat -> pp_G1s pp !! k = Some (gmul (α ^ (k + 1)) (gen1 C)).
  Proof.
    intros H. cbn. rewrite lookup_app_l by (rewrite fmap_length, seq_length; done).
    rewrite list_lookup_fmap, lookup_seq_lt by done. cbn [fmap option_fmap option_map].
    replace (1 + k)%nat with (k + 1)%nat by lia. done.
  Qed.
  Lemma pp_G1s_lookup_mid : pp_G1s pp !! N = Some (gen1 C).
  Proof.
    cbn [pp_G1s pp NewPublicParams]. rewrite lookup_app_r by (rewrite fmap_length, seq_length; done).
    rewrite fmap_length, seq_length, Nat.sub_diag. done.
  Qed.
  Lemma pp_G1s_lookup_hi k : (N < k < 2 * N)%nat -> pp_G1s pp !! k = Some (gmul (α ^ (k + 1)) (gen1 C)).
  Proof.
    intros H. cbn [pp_G1s pp NewPublicParams]. rewrite lookup_app_r by (rewrite fmap_length, seq_length; lia).
    rewrite fmap_length, seq_length. rewrite lookup_app_r by (cbn; lia). cbn [length].
    rewrite list_lookup_fmap, lookup_seq_lt by lia. cbn [fmap option_fmap option_map]. do 3 f_equal. lia.
  Qed.
  Lemma pp_G1s_length : (1 <= N)%nat -> length (pp_G1s pp) = (2 * N)%nat.
  Proof. intros H. cbn [pp_G1s pp NewPublicParams]. rewrite !app_length, !fmap_length, !seq_length. cbn [length]. lia. Qed.
  Lemma pp_G2s_length : length (pp_G2s pp) = N.
  Proof. cbn. rewrite fmap_length, seq_length. done. Qed.
  Lemma g2_at_spec i : (i < N)%nat -> g2_at pp i = Ret (gmul (α ^ (N - i)) (gen2 C)).
  Proof.
    intros H. unfold g2_at, idxZ. cbn [pp_N pp NewPublicParams]. destruct (Z.ltb_spec (Z.of_nat N - Z.of_nat i - 1) 0); [lia|].
    apply idx_ret. cbn [pp_G2s pp NewPublicParams]. rewrite list_lookup_fmap, lookup_seq_lt by lia.
    cbn [fmap option_fmap option_map]. do 3 f_equal. lia.
  Qed.
  Lemma g2_at_panic i : (N <= i)%nat -> g2_at pp i = Panic.
  Proof. intros H. unfold g2_at, idxZ. cbn [pp_N pp NewPublicParams]. destruct (Z.ltb_spec (Z.of_nat N - Z.of_nat i - 1) 0); [done|lia]. Qed.

  (** The commitment is the multi-scalar multiplication with the first N elements. *)
  Definition commitment (m : list Zr) : G1 C := gmul (dot m (pows α 1 N)) (gen1 C).

  Lemma mapM_G1s js (f : nat -> nat) :
    (forall j, j ∈ js -> (f j < N \/ N < f j < 2 * N)%nat) ->
    mapM (fun j => idx (pp_G1s pp) (f j)) js = Ret ((fun x => gmul x (gen1 C)) <$> ((fun j => α ^ (f j + 1)) <$> js)).
  Proof.
    intros H. rewrite <- list_fmap_compose. apply mapM_ret. intros j Hj. cbn. apply idx_ret. destruct (H j Hj).
    - apply pp_G1s_lookup_lo. done.
    - apply pp_G1s_lookup_hi. done.
  Qed.

  Lemma fmap_seq_shift (f : nat -> nat) a n b :
    (forall j, (a <= j < a + n)%nat -> f j = (j + b - a)%nat) -> (a <= b)%nat -> (zpow α ∘ f) <$> seq a n = pows α b n.
  Proof.
    intros H Hab. unfold pows. revert a b H Hab. induction n as [|n IH]; intros a b H Hab; [done|]. cbn [seq fmap list_fmap].
    f_equal; [cbn; rewrite H by lia; f_equal; lia|]. apply IH; [|lia]. intros j Hj. rewrite H by lia. lia.
  Qed.

  Lemma commit_spec m : length m = N -> (1 <= N)%nat -> Commit pp m = Ret (commitment m).
  Proof.
    intros Hm HN. unfold Commit. cbn [pp_N pp NewPublicParams]. rewrite (proj2 (Nat.eqb_eq _ _) Hm).
    change (mapM _ (seq 0 N)) with (mapM (fun i => idx (pp_G1s pp) i) (seq 0 N)).
    rewrite (mapM_G1s (seq 0 N) (fun i => i)) by (intros j Hj; apply elem_of_seq in Hj; lia). cbn [rbind].
    assert (Hne : (fun x => gmul x (gen1 C)) <$> ((fun j => α ^ (j + 1)) <$> seq 0 N) <> []).
    { destruct N; [lia|done]. }
    rewrite g1v_mulv_sum; [|rewrite !fmap_length, seq_length; done|exact Hne].
    rewrite msm_common_base. unfold commitment. do 3 f_equal.
    unfold pows. rewrite <- (fmap_S_seq 0 N), <- list_fmap_compose. apply list_fmap_ext; intros; cbn; rewrite ?Nat.add_1_r; done.
  Qed.
  Lemma commit_panic m : length m <> N -> Commit pp m = Panic.
  Proof. intros Hm. unfold Commit. cbn [pp_N pp NewPublicParams]. rewrite (proj2 (Nat.eqb_neq _ _) Hm). done. Qed.

  (** exponent of the opening proof at position i *)
  Definition open_exp (i : nat) (m : list Zr) : Zr :=
    α ^ (N - i) * dot m (pows α 1 N) - nth i m 0 * α ^ (N + 1).

  Lemma open_split i m : length m = N -> (i < N)%nat ->
    dot (take i m ++ drop (i + 1) m) (pows α (N - i + 1) i ++ pows α (N + 2) (N - i - 1)) = open_exp i m.
  Proof.
    intros Hm Hi. unfold open_exp.
    assert (E : m = take i m ++ nth i m 0 :: drop (i + 1) m).
    { rewrite <- (take_drop i m) at 1. f_equal.
      destruct (lookup_lt_is_Some_2 m i ltac:(lia)) as [x Hx].
      rewrite (drop_S m x i Hx). f_equal; [|f_equal; lia]. rewrite nth_lookup, Hx. done. }
    assert (P : pows α 1 N = pows α 1 i ++ [α ^ (i + 1)] ++ pows α (i + 2) (N - i - 1)).
    { replace N with (i + (1 + (N - i - 1)))%nat at 1 by lia. rewrite !pows_app. f_equal. f_equal.
      - unfold pows. cbn [seq fmap list_fmap]. do 2 f_equal. lia.
      - f_equal. lia. }
    assert (D : dot m (pows α 1 N) = dot (take i m) (pows α 1 i) + nth i m 0 * α ^ (i + 1) + dot (drop (i + 1) m) (pows α (i + 2) (N - i - 1))).
    { rewrite E at 1. rewrite P. rewrite dot_app by (rewrite take_length, pows_length; lia). cbn [app dot]. ring. }
    rewrite D. rewrite dot_app by (rewrite take_length, pows_length; lia).
    replace (pows α (N - i + 1) i) with (vscale (α ^ (N - i)) (pows α 1 i)) by (rewrite pows_shift; done).
    replace (pows α (N + 2) (N - i - 1)) with (vscale (α ^ (N - i)) (pows α (i + 2) (N - i - 1))) by (rewrite pows_shift; f_equal; lia).
    rewrite !dot_vscale_r. replace (N + 1)%nat with ((N - i) + (i + 1))%nat by lia. rewrite !zpow_add. ring.
  Qed.

  Lemma open_spec i m : length m = N -> (i < N)%nat -> (2 <= N)%nat ->
    Open pp i m = Ret (nth i m 0, gmul (open_exp i m) (gen1 C)).
  Proof.
    intros Hm Hi HN. unfold Open. cbn [pp_N pp NewPublicParams]. rewrite (proj2 (Nat.ltb_lt _ _) Hi).
    rewrite filter_seq_skip by done.
    change (mapM (fun j => idx _ (N - i + j - 1)) (seq 1 i ++ seq (i + 2) (N - i - 1)))
      with (mapM (fun j => idx (pp_G1s pp) (N - i + j - 1)) (seq 1 i ++ seq (i + 2) (N - i - 1))).
    rewrite (mapM_G1s _ (fun j => N - i + j - 1)%nat).
    2:{ intros j Hj. apply elem_of_app in Hj. destruct Hj as [Hj|Hj]; apply elem_of_seq in Hj; lia. }
    cbn [rbind].
    assert (E : mapM (fun j => idx m (j - 1)) (seq 1 i ++ seq (i + 2) (N - i - 1)) = Ret (take i m ++ drop (i + 1) m)).
    { rewrite (mapM_ret _ (fun j => nth (j - 1) m 0)).
      - f_equal. rewrite fmap_app. f_equal.
        + apply list_eq. intros k. rewrite list_lookup_fmap. destruct (decide (k < i)%nat).
          * rewrite lookup_seq_lt by done. rewrite lookup_take by done. cbn. replace (k - 0)%nat with k by lia.
            destruct (lookup_lt_is_Some_2 m k ltac:(lia)) as [x Hx]. rewrite nth_lookup, Hx. done.
          * rewrite lookup_seq_ge, lookup_take_ge by lia. done.
        + apply list_eq. intros k. rewrite list_lookup_fmap, lookup_drop. destruct (decide (k < N - i - 1)%nat).
          * rewrite lookup_seq_lt by done. cbn. replace (i + 2 + k - 1)%nat with (i + 1 + k)%nat by lia.
            destruct (lookup_lt_is_Some_2 m (i + 1 + k) ltac:(lia)) as [x Hx]. rewrite nth_lookup, Hx. done.
          * rewrite lookup_seq_ge, lookup_ge_None_2 by lia. done.
      - intros j Hj. apply idx_ret. apply elem_of_app in Hj.
        assert (1 <= j <= N)%nat by (destruct Hj as [Hj|Hj]; apply elem_of_seq in Hj; lia).
        destruct (lookup_lt_is_Some_2 m (j - 1) ltac:(lia)) as [x Hx]. rewrite nth_lookup, Hx. done. }
    rewrite E. cbn [rbind].
    assert (Ex : ((fun j => α ^ (N - i + j - 1 + 1)) <$> seq 1 i ++ seq (i + 2) (N - i - 1)) = pows α (N - i + 1) i ++ pows α (N + 2) (N - i - 1)).
    { rewrite fmap_app. f_equal.
      - rewrite <- (fmap_seq_shift (fun j => N - i + j - 1 + 1)%nat 1); [done| |lia]. intros j Hj. lia.
      - rewrite <- (fmap_seq_shift (fun j => N - i + j - 1 + 1)%nat (i + 2)); [done| |lia]. intros j Hj. lia. }
    rewrite Ex. rewrite g1v_mulv_spec by (rewrite fmap_length, !app_length, !pows_length, take_length, drop_length; lia).
    cbn [rbind]. rewrite g1v_sum_spec.
    - cbn [rbind]. rewrite gsum_gvmul, msm_common_base, open_split by done.
      destruct (lookup_lt_is_Some_2 m i ltac:(lia)) as [x Hx]. unfold idx. rewrite Hx. cbn [rbind]. rewrite nth_lookup, Hx. done.
    - intros E0. apply (f_equal length) in E0. rewrite gvmul_length in E0.
      + rewrite fmap_length, app_length, !pows_length in E0. cbn in E0. lia.
      + rewrite fmap_length, !app_length, !pows_length, take_length, drop_length; lia.
  Qed.
  Lemma open_panic i m : (N <= i)%nat -> Open pp i m = Panic.
  Proof. intros H. unfold Open. cbn [pp_N pp NewPublicParams]. destruct (Nat.ltb_spec i N); [lia|done]. Qed.

  (** Verification is a linear equation between points. *)
  Lemma verify_iff mi π Cm i : (i < N)%nat ->
    Verify pp mi π Cm i = Ret nil_error <-> gmul (α ^ (N - i)) Cm = gadd π (gmul (mi * α ^ (N + 1)) (gen1 C)).
  Proof.
    intros Hi. unfold Verify. rewrite g2_at_spec by done. cbn [rbind]. rewrite !g1v_innerprod_1. cbn [rbind].
    cbn [pp_Gt pp NewPublicParams].
    assert (E : geqb (pair C Cm (gmul (α ^ (N - i)) (gen2 C))) (gadd (pair C π (gen2 C)) (gmul mi (gmul (α ^ (N + 1)) GenGt))) = true
      <-> gmul (α ^ (N - i)) Cm = gadd π (gmul (mi * α ^ (N + 1)) (gen1 C))).
    { rewrite geqb_eq. unfold GenGt. rewrite pair_mul_r, <- gmul_mul, <- !pair_mul_l, <- pair_add_l. split; [|intros ->; done].
      intros E. apply gsub_eq_0. apply pair_gen2_inj. rewrite pair_add_l, pair_opp_l, E. apply gadd_opp_r. }
    destruct (geqb _ _) eqn:Eb.
    - split; [intros _; apply E; done|done].
    - split; [discriminate|]. intros H. apply E in H. congruence.
  Qed.
  Lemma verify_returns mi π Cm i : (i < N)%nat -> Verify pp mi π Cm i = Ret nil_error \/ exists s, Verify pp mi π Cm i = Ret (Err s).
  Proof.
    intros Hi. unfold Verify. rewrite g2_at_spec by done. cbn [rbind]. rewrite !g1v_innerprod_1. cbn [rbind].
    destruct (geqb _ _); [left; done|right; eexists; done].
  Qed.
  Lemma verify_panic mi π Cm i : (N <= i)%nat -> Verify pp mi π Cm i = Panic.
  Proof. intros Hi. unfold Verify. rewrite g2_at_panic by done. done. Qed.

  Lemma update_spec Cm m mi i : (i < N)%nat -> (i < length m)%nat ->
    Update pp Cm m mi i = Ret (gadd Cm (gmul ((mi - nth i m 0) * α ^ (i + 1)) (gen1 C))).
  Proof.
    intros Hi Hm. unfold Update. unfold idx. rewrite pp_G1s_lookup_lo by done. cbn [rbind].
    destruct (lookup_lt_is_Some_2 m i ltac:(lia)) as [x Hx]. rewrite nth_lookup, Hx. cbn [rbind]. f_equal. change (default 0 (Some x)) with x. generalize (α ^ (i + 1)). intros y. module.
  Qed.

  (** Aggregation *)
  Lemma aggregate_spec cs πs (ro : PP C -> list (G1 C) -> nat -> Zr) : length πs = length cs -> πs <> [] ->
    Aggregate pp cs πs (fun pp cs i => Ret (ro pp cs i)) = Ret (msm (ro pp cs <$> seq 0 (length πs)) πs).
  Proof.
    intros Hl Hne. unfold Aggregate. rewrite (proj2 (Nat.eqb_eq _ _) Hl).
    rewrite (mapM_ret _ (fun j => gmul (ro pp cs j) (nth j πs gzero))).
    - cbn [rbind]. rewrite g1v_sum_spec by (destruct πs; done). f_equal. rewrite <- gsum_gvmul. f_equal.
      unfold gvmul. apply list_eq. intros k. rewrite lookup_zip_with, !list_lookup_fmap.
      destruct (decide (k < length πs)%nat) as [Hk|Hk].
      + rewrite lookup_seq_lt by done. destruct (lookup_lt_is_Some_2 πs k Hk) as [P HP]. rewrite HP. cbn. rewrite nth_lookup, HP. done.
      + rewrite lookup_seq_ge by lia. done.
    - intros j Hj. apply elem_of_seq in Hj. destruct (lookup_lt_is_Some_2 πs j ltac:(lia)) as [P HP].
      unfold idx. rewrite HP. cbn [rbind]. rewrite nth_lookup, HP. done.
  Qed.

  Lemma mapM_ext {A B} (f g : A -> res B) l : (forall x, x ∈ l -> f x = g x) -> mapM f l = mapM g l.
  Proof.
    induction l as [|x l IH]; intros H; [done|]. cbn [mapM]. rewrite (H x) by left. rewrite IH; [done|].
    intros y Hy. apply H. right. done.
  Qed.

  Lemma verify_aggregation_iff ixs cs π S (ro : PP C -> list (G1 C) -> nat -> Zr) :
    Forall (fun i => i < N)%nat ixs -> length ixs = length cs -> cs <> [] ->
    VerifyAggregation pp ixs cs π S (fun pp cs i => Ret (ro pp cs i)) = Ret nil_error <->
    msm (vmul (ro pp cs <$> seq 0 (length ixs)) ((fun i => α ^ (N - i)) <$> ixs)) cs = gadd π (gmul (S * α ^ (N + 1)) (gen1 C)).
  Proof.
    intros Hi Hl Hne. unfold VerifyAggregation.
    rewrite (mapM_ret _ (ro pp cs)) by done. cbn [rbind].
    rewrite (mapM_ret _ (fun i => gmul (α ^ (N - i)) (gen2 C))).
    2:{ intros i Hin. apply g2_at_spec. rewrite Forall_forall in Hi. apply Hi. done. }
    cbn [rbind]. rewrite g2v_mulv_spec by (rewrite !fmap_length, seq_length; done). cbn [rbind].
    assert (E : zip_with (fun P x => gmul x P) ((fun i => gmul (α ^ (N - i)) (gen2 C)) <$> ixs) (ro pp cs <$> seq 0 (length ixs))
      = (fun x => gmul x (gen2 C)) <$> vmul (ro pp cs <$> seq 0 (length ixs)) ((fun i => α ^ (N - i)) <$> ixs)).
    { generalize 0%nat. clear. induction ixs as [|i ixs IH]; intros n; [done|]. cbn [seq fmap list_fmap length zip_with vmul].
      f_equal; [rewrite gmul_mul; done|]. apply IH. }
    rewrite E. rewrite g1v_innerprod_spec.
    2:{ rewrite fmap_length, vmul_length by (rewrite !fmap_length, seq_length; done). rewrite fmap_length, seq_length. done. }
    2:{ done. }
    cbn [rbind]. rewrite g1v_innerprod_1. cbn [rbind]. rewrite pairsum_msm. cbn [pp_Gt pp NewPublicParams].
    assert (E2 : forall A, geqb (gadd (gmul S (gmul (α ^ (N + 1)) GenGt)) (pair C π (gen2 C))) (pair C A (gen2 C)) = true
      <-> A = gadd π (gmul (S * α ^ (N + 1)) (gen1 C))).
    { intros A. rewrite geqb_eq. unfold GenGt. rewrite <- gmul_mul, <- pair_mul_l, <- pair_add_l. rewrite gadd_comm. split; [|intros ->; done].
      intros E2. apply gsub_eq_0. apply pair_gen2_inj. rewrite pair_add_l, pair_opp_l, E2. apply gadd_opp_r. }
    destruct (geqb _ _) eqn:Eb.
    - apply E2 in Eb. split; [intros _; exact Eb|done].
    - split; [discriminate|]. intros H. apply E2 in H. congruence.
  Qed.
  Lemma verify_aggregation_length ixs cs π S (ro : PP C -> list (G1 C) -> nat -> Zr) :
    length ixs <> length cs \/ cs = [] -> VerifyAggregation pp ixs cs π S (fun pp cs i => Ret (ro pp cs i)) = Panic.
  Proof.
    intros H. unfold VerifyAggregation. rewrite (mapM_ret _ (ro pp cs)) by done. cbn [rbind].
    destruct (mapM (fun i => g2_at _ i) ixs) as [g2s| |] eqn:E; cbn [rbind].
    - apply mapM_length in E. rewrite g2v_mulv_spec by (rewrite fmap_length, seq_length; lia). cbn [rbind].
      unfold G1v_InnerProd. rewrite zip_with_length, fmap_length, seq_length, E, Nat.min_id.
      destruct (Nat.eqb_spec (length cs) (length ixs)) as [E'|E']; [|done].
      destruct H as [H| ->]; [congruence|]. done.
    - done.
    - exfalso. revert E. clear. induction ixs as [|i ixs IH]; [discriminate|]. cbn [mapM].
      unfold g2_at, idxZ, idx. destruct (_ <? _)%Z; cbn [rbind]; [discriminate|]. destruct (_ !! _); cbn [rbind]; [|discriminate].
      unfold g2_at, idxZ, idx in IH. destruct (mapM _ ixs); cbn [rbind]; try discriminate. intros E. apply IH. done.
  Qed.
  End Setup.

  Lemma RO_spec (pp : PP C) cs i : RO pp cs i =
    Ret (fe (sha256 C (pp_Digest pp ++ [(Z.of_nat i mod 256)%Z] ++ concat (enc1 C <$> cs)))).
  Proof. unfold RO. apply fe_sha. Qed.
End PP.
