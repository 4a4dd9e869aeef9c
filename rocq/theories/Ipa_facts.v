(** Closed forms of the inner-product prover and verifier. *)
From Verif Require Export Model_ipa.
Local Open Scope Zr_scope.
Global Opaque fe.

(** Tensor product of pairs: kron [(p1,q1);...;(pk,qk)] lists, most significant bit first, the 2^k
    products choosing p_j or q_j. *)
Fixpoint kron (l : list (Zr * Zr)) : list Zr :=
  match l with [] => [1] | (p, q) :: l => vscale p (kron l) ++ vscale q (kron l) end.
Definition gco (xs : list Zr) : list Zr := kron ((fun x => (zinv x, x)) <$> xs).
Definition hco (xs : list Zr) : list Zr := kron ((fun x => (x, zinv x)) <$> xs).

Lemma kron_length l : length (kron l) = (2 ^ length l)%nat.
Proof. induction l as [|[p q] l IH]; [done|]. cbn [kron length]. rewrite app_length, !vscale_length, IH. cbn. lia. Qed.
Lemma gco_length xs : length (gco xs) = (2 ^ length xs)%nat.
Proof. unfold gco. rewrite kron_length, fmap_length. done. Qed.
Lemma hco_length xs : length (hco xs) = (2 ^ length xs)%nat.
Proof. unfold hco. rewrite kron_length, fmap_length. done. Qed.

Lemma dot_gco_hco xs : Forall (fun x => x <> 0) xs -> dot (gco xs) (hco xs) = zr 2 ^ length xs.
Proof.
  induction xs as [|x xs IH]; intros Hxs.
  - cbn. change (zpow (zr 2) 0) with (1). ring.
  - apply Forall_cons in Hxs. destruct Hxs as [Hx Hxs]. specialize (IH Hxs).
    unfold gco, hco in *. cbn [fmap list_fmap kron length].
    rewrite dot_app by (rewrite !vscale_length, !kron_length, !fmap_length; done).
    rewrite !dot_vscale_l, !dot_vscale_r, IH.
    change (zpow (zr 2) (S (length xs))) with (zr 2 * zpow (zr 2) (length xs)).
    assert (E : zr 2 = 1 + 1) by (change 1 with (zr 1); rewrite <- zr_add; f_equal).
    generalize (zpow (zr 2) (length xs)). rewrite E. intros z. clear IH. 
    replace (zinv x * (x * z)) with (z) by (field; done).
    replace (x * (zinv x * z)) with z by (field; done). ring.
Qed.

Lemma gadd_cancel_r {M : Grp} (P Q R : M) : gadd Q P = gadd R P -> Q = R.
Proof. rewrite (gadd_comm M Q P), (gadd_comm M R P). apply gadd_cancel_l. Qed.

Section IPA.
  Context {C : Curve}.
  Implicit Types (pp : bpPP C) (g h LRs : list (G1 C)).

  Definition bp_wf pp : Prop := bp_H pp = [] \/ (length (bp_G pp) <= length (bp_H pp))%nat.
  Definition setup_pre (G H : list (G1 C)) (U : G1 C) : bytes :=
    match H with
    | [] => enc1 C U ++ concat (enc1 C <$> G)
    | _ => enc1 C U ++ concat (zip_with (fun P Q : G1 C => enc1 C P ++ enc1 C Q) G H)
    end.
  Lemma setup_digest_spec pp : bp_wf pp ->
    setupDigest pp = Ret (MkBpPP (sha256 C (setup_pre (bp_G pp) (bp_H pp) (bp_U pp))) (bp_G pp) (bp_H pp) (bp_U pp)).
  Proof.
    unfold setupDigest, setup_preimage, setup_pre. intros [->|Hl]; [done|].
    destruct (bp_H pp) as [|h0 H]; [done|]. rewrite (proj2 (Nat.leb_le _ _) Hl). done.
  Qed.

  (** The challenge and parameters of the first step. *)
  Definition inst_x pp : Zr := fe (sha256 C (bp_Digest pp)).
  Definition inst_digest pp : bytes := sha256 C (setup_pre (bp_G pp) (bp_H pp) (gmul (inst_x pp) (bp_U pp))).
  Definition inst_pp pp : bpPP C := MkBpPP (inst_digest pp) (bp_G pp) (bp_H pp) (gmul (inst_x pp) (bp_U pp)).
  Lemma instance_spec pp P c : bp_wf pp ->
    computeInstanceSpecificParams pp P c = Ret (inst_pp pp, gadd P (gmul (inst_x pp * c) (bp_U pp))).
  Proof.
    intros Hwf. unfold computeInstanceSpecificParams, SHA256Digest. rewrite fe_sha. cbn [rbind].
    unfold RecomputeDigest. rewrite setup_digest_spec by exact Hwf. done.
  Qed.

  (** The challenge of one round and of all rounds. *)
  Definition round_x (D : bytes) (L R : G1 C) : Zr := fe (sha256 C (enc1 C L ++ enc1 C R ++ D)).
  Fixpoint chal (D : bytes) LRs : list Zr :=
    match LRs with L :: R :: t => round_x D L R :: chal D t | _ => [] end.
  Fixpoint lrsum (xs : list Zr) LRs : G1 C :=
    match xs, LRs with
    | x :: xs, L :: R :: t => gadd (gadd (gmul (x * x) L) (gmul (zinv (x * x)) R)) (lrsum xs t)
    | _, _ => gzero
    end.
  Lemma chal_length D LRs k : length LRs = (2 * k)%nat -> length (chal D LRs) = k.
  Proof.
    revert LRs; induction k as [|k IH]; intros [|L [|R t]] H; cbn in *; try lia.
    f_equal. apply IH. lia.
  Qed.

  Definition foldg (x : Zr) g : list (G1 C) :=
    gvadd (gvscale (zinv x) (take (length g / 2) g)) (gvscale x (drop (length g / 2) g)).
  Definition foldh (x : Zr) h : list (G1 C) :=
    gvadd (gvscale x (take (length h / 2) h)) (gvscale (zinv x) (drop (length h / 2) h)).
  Lemma half_le n : (n / 2 <= n)%nat.
  Proof. pose proof (Nat.div_mod n 2 ltac:(lia)). lia. Qed.
  Lemma half_half n : (n / 2 <= n - n / 2)%nat.
  Proof. pose proof (Nat.div_mod n 2 ltac:(lia)). pose proof (Nat.mod_upper_bound n 2). lia. Qed.
  Lemma slice_to_spec {A} n (l : list A) : (n <= length l)%nat -> slice_to n l = Ret (take n l).
  Proof. intros H. unfold slice_to. rewrite (proj2 (Nat.leb_le _ _) H). done. Qed.
  Lemma slice_from_spec {A} n (l : list A) : (n <= length l)%nat -> slice_from n l = Ret (drop n l).
  Proof. intros H. unfold slice_from. rewrite (proj2 (Nat.leb_le _ _) H). done. Qed.

  Lemma next_spec L R pp g h P : length g = length h ->
    computeNextParams L R pp g h P =
    let x := round_x (bp_Digest pp) L R in
    Ret (MkNext x (zinv x) (foldg x g) (foldh x h)
      (gadd (gadd (gmul (x * x) L) P) (gmul (zinv (x * x)) R))).
  Proof.
    intros Hl. unfold computeNextParams, randomOracle. rewrite fe_sha. cbn [rbind].
    rewrite !slice_to_spec, !slice_from_spec by (rewrite <- ?Hl; apply half_le). cbn [rbind].
    rewrite !g1v_mul_spec.
    rewrite !g1v_hadamard_spec.
    2,3: rewrite !gvscale_length, take_length, drop_length; rewrite <- ?Hl; pose proof (half_half (length g)); lia.
    cbn [rbind]. unfold foldg, foldh. rewrite <- Hl. done.
  Qed.

  Lemma half_pow2 k : (2 ^ S k / 2 = 2 ^ k)%nat.
  Proof. rewrite Nat.pow_succ_r', Nat.mul_comm, Nat.div_mul; lia. Qed.
  Lemma foldg_length x g k : length g = (2 ^ S k)%nat -> length (foldg x g) = (2 ^ k)%nat.
  Proof.
    intros H. unfold foldg. rewrite H, half_pow2. rewrite gvadd_length.
    - rewrite gvscale_length, take_length, H. cbn. lia.
    - rewrite !gvscale_length, take_length, drop_length, H. cbn. lia.
  Qed.
  Lemma foldh_length x g k : length g = (2 ^ S k)%nat -> length (foldh x g) = (2 ^ k)%nat.
  Proof.
    intros H. unfold foldh. rewrite H, half_pow2. rewrite gvadd_length.
    - rewrite gvscale_length, take_length, H. cbn. lia.
    - rewrite !gvscale_length, take_length, drop_length, H. cbn. lia.
  Qed.
  Lemma msm_fold2 (x y : Zr) n (s : list Zr) g : length s = n -> length g = (n + n)%nat ->
    msm s (gvadd (gvscale x (take n g)) (gvscale y (drop n g))) = msm (vscale x s ++ vscale y s) g.
  Proof.
    intros Hs Hg. rewrite msm_gvadd by (rewrite !gvscale_length, take_length, drop_length; lia).
    rewrite !msm_gvscale. rewrite <- (take_drop n g) at 3.
    rewrite msm_app by (rewrite vscale_length, take_length; lia). rewrite !msm_vscale. done.
  Qed.
  Lemma msm_foldg x xs g : length g = (2 ^ S (length xs))%nat -> msm (gco xs) (foldg x g) = msm (gco (x :: xs)) g.
  Proof.
    intros H. unfold foldg. rewrite H, half_pow2. rewrite msm_fold2; [done|apply gco_length|rewrite H; cbn; lia].
  Qed.
  Lemma msm_foldh x xs g : length g = (2 ^ S (length xs))%nat -> msm (hco xs) (foldh x g) = msm (hco (x :: xs)) g.
  Proof.
    intros H. unfold foldh. rewrite H, half_pow2. rewrite msm_fold2; [done|apply hco_length|rewrite H; cbn; lia].
  Qed.

  Definition ipa_rhs pp (xs : list Zr) g h (a b : Zr) : G1 C :=
    gadd (gadd (gmul a (msm (gco xs) g)) (gmul b (msm (hco xs) h))) (gmul (a * b) (bp_U pp)).

  Lemma pow2_ne1 k : (2 ^ S k =? 1)%nat = false.
  Proof. apply Nat.eqb_neq. cbn. pose proof (Nat.pow_nonzero 2 k). lia. Qed.

  (** Acceptance of the recursive verifier as one equation. *)
  Lemma ipa_verify_spec k : forall pp P g h LRs a b,
    length g = (2 ^ k)%nat -> length h = (2 ^ k)%nat -> (2 * k <= length LRs)%nat ->
    let xs := chal (bp_Digest pp) (take (2 * k) LRs) in
    exists e, ipa_verify pp P g h LRs a b = Ret e /\
      (e = nil_error <-> gadd P (lrsum xs LRs) = ipa_rhs pp xs g h a b).
  Proof.
    induction k as [|k IH]; intros pp P g h LRs a b Hg Hh HL xs.
    - destruct g as [|g0 [|]]; try (cbn in Hg; lia). destruct h as [|h0 [|]]; try (cbn in Hh; lia).
      exists (if geqb (gadd (gadd (gmul (a * b) (bp_U pp)) (gmul a g0)) (gmul b h0)) P then nil_error
              else Err "P != g^a*h^b*u^c").
      split. { destruct LRs as [|? [|]]; cbn; destruct (geqb _ P); done. }
      subst xs. replace (take (2 * 0) LRs) with (@nil (G1 C)) by (destruct LRs; done). cbn [chal lrsum]. unfold ipa_rhs. change (gco []) with [1]. change (hco []) with [1]. cbn [msm].
      assert (E : gadd (gadd (gmul a (gadd (gmul 1 g0) gzero)) (gmul b (gadd (gmul 1 h0) gzero))) (gmul (a * b) (bp_U pp))
                  = gadd (gadd (gmul (a * b) (bp_U pp)) (gmul a g0)) (gmul b h0)) by module.
      rewrite E. clear E. rewrite gadd_0_r.
      destruct (geqb _ P) eqn:Eq.
      + apply geqb_eq in Eq. split; intros; [done|]. done.
      + apply geqb_neq in Eq. split; intros; congruence.
    - destruct LRs as [|L [|R LRs]]; [cbn in HL; lia..|].
      assert (E2 : (2 * S k = S (S (2 * k)))%nat) by lia.
      subst xs. rewrite E2. cbn [take chal lrsum].
      set (x := round_x (bp_Digest pp) L R).
      set (P' := gadd (gadd (gmul (x * x) L) P) (gmul (zinv (x * x)) R)).
      destruct (IH pp P' (foldg x g) (foldh x h) LRs a b) as (e & He & Hiff);
        [by apply foldg_length|by apply foldh_length|cbn in HL; lia|].
      exists e. split.
      + cbn [ipa_verify]. rewrite Hg, pow2_ne1. rewrite next_spec by lia. cbn [rbind].
        cbn [np_P np_g np_h]. exact He.
      + rewrite Hiff. clear He Hiff IH. set (xs := chal _ _).
        assert (Hxs : length xs = k). { apply chal_length. rewrite take_length. cbn in HL. lia. }
        unfold ipa_rhs. rewrite msm_foldg, msm_foldh by (rewrite Hxs; done).
        assert (E : gadd P' (lrsum xs LRs) =
          gadd P (gadd (gadd (gmul (x * x) L) (gmul (zinv (x * x)) R)) (lrsum xs LRs))).
        { subst P'. generalize (zinv (x * x)). intros y. module. }
        rewrite E. done.
  Qed.

  Lemma ipa_verify_short k : forall pp P g h LRs a b,
    length g = (2 ^ k)%nat -> length h = (2 ^ k)%nat -> (length LRs < 2 * k)%nat ->
    ipa_verify pp P g h LRs a b = Panic.
  Proof.
    induction k as [|k IH]; intros pp P g h LRs a b Hg Hh HL; [lia|].
    destruct LRs as [|L [|R LRs]]; [cbn [ipa_verify]; rewrite Hg, pow2_ne1; done..|].
    cbn [ipa_verify]. rewrite Hg, pow2_ne1, next_spec by lia. cbn [rbind np_P np_g np_h].
    apply IH; [by apply foldg_length|by apply foldh_length|cbn in HL; lia].
  Qed.

  Lemma ipp_verify_spec k pp p :
    length (bp_G pp) = (2 ^ k)%nat -> length (bp_H pp) = (2 ^ k)%nat -> (2 * k <= length (ipp_LRs p))%nat ->
    let xs := chal (inst_digest pp) (take (2 * k) (ipp_LRs p)) in
    exists e, IPP_Verify p pp = Ret e /\
      (e = nil_error <->
       gadd (gadd (ipp_P p) (gmul (inst_x pp * ipp_C p) (bp_U pp))) (lrsum xs (ipp_LRs p)) =
       gadd (gadd (gmul (ipp_a p) (msm (gco xs) (bp_G pp))) (gmul (ipp_b p) (msm (hco xs) (bp_H pp))))
         (gmul (ipp_a p * ipp_b p * inst_x pp) (bp_U pp))).
  Proof.
    intros HG HH HL xs. unfold IPP_Verify. rewrite instance_spec by (right; lia). cbn [rbind].
    destruct (ipa_verify_spec k (inst_pp pp) (gadd (ipp_P p) (gmul (inst_x pp * ipp_C p) (bp_U pp)))
      (bp_G pp) (bp_H pp) (ipp_LRs p) (ipp_a p) (ipp_b p)) as (e & He & Hiff); [done..|].
    exists e. split; [exact He|]. rewrite Hiff. unfold ipa_rhs. cbn [inst_pp bp_Digest bp_U]. fold xs.
    rewrite <- gmul_mul. done.
  Qed.
  Lemma ipp_verify_short k pp p :
    length (bp_G pp) = (2 ^ k)%nat -> length (bp_H pp) = (2 ^ k)%nat -> (length (ipp_LRs p) < 2 * k)%nat ->
    IPP_Verify p pp = Panic.
  Proof.
    intros HG HH HL. unfold IPP_Verify. rewrite instance_spec by (right; lia). cbn [rbind].
    apply (ipa_verify_short k); done.
  Qed.

  (** The prover. *)
  Definition folda (x : Zr) (a : list Zr) : list Zr :=
    vadd (vscale x (take (length a / 2) a)) (vscale (zinv x) (drop (length a / 2) a)).
  Definition foldb (x : Zr) (b : list Zr) : list Zr :=
    vadd (vscale (zinv x) (take (length b / 2) b)) (vscale x (drop (length b / 2) b)).
  Lemma folda_length x a k : length a = (2 ^ S k)%nat -> length (folda x a) = (2 ^ k)%nat.
  Proof.
    intros H. unfold folda. rewrite H, half_pow2. rewrite vadd_length.
    - rewrite vscale_length, take_length, H. cbn. lia.
    - rewrite !vscale_length, take_length, drop_length, H. cbn. lia.
  Qed.
  Lemma foldb_length x a k : length a = (2 ^ S k)%nat -> length (foldb x a) = (2 ^ k)%nat.
  Proof.
    intros H. unfold foldb. rewrite H, half_pow2. rewrite vadd_length.
    - rewrite vscale_length, take_length, H. cbn. lia.
    - rewrite !vscale_length, take_length, drop_length, H. cbn. lia.
  Qed.
  Lemma dot_fold2 (x y : Zr) n (s a : list Zr) : length s = n -> length a = (n + n)%nat ->
    dot (vadd (vscale x (take n a)) (vscale y (drop n a))) s = dot a (vscale x s ++ vscale y s).
  Proof.
    intros Hs Ha. rewrite dot_vadd_l by (rewrite !vscale_length, take_length, drop_length; lia).
    rewrite !dot_vscale_l. rewrite <- (take_drop n a) at 3.
    rewrite dot_app by (rewrite vscale_length, take_length; lia). rewrite !dot_vscale_r. done.
  Qed.
  Lemma dot_folda x xs a : length a = (2 ^ S (length xs))%nat -> dot (folda x a) (hco xs) = dot a (hco (x :: xs)).
  Proof.
    intros H. unfold folda. rewrite H, half_pow2. rewrite dot_fold2; [done|apply hco_length|rewrite H; cbn; lia].
  Qed.
  Lemma dot_foldb x xs a : length a = (2 ^ S (length xs))%nat -> dot (foldb x a) (gco xs) = dot a (gco (x :: xs)).
  Proof.
    intros H. unfold foldb. rewrite H, half_pow2. rewrite dot_fold2; [done|apply gco_length|rewrite H; cbn; lia].
  Qed.

  Definition ipa_com (U : G1 C) (a b : list Zr) g h : G1 C :=
    gadd (gadd (msm a g) (msm b h)) (gmul (dot a b) U).
  Definition ipa_L (U : G1 C) (a b : list Zr) g h : G1 C :=
    let n := (length g / 2)%nat in
    gadd (gadd (msm (take n a) (drop n g)) (msm (drop n b) (take n h))) (gmul (dot (take n a) (drop n b)) U).
  Definition ipa_R (U : G1 C) (a b : list Zr) g h : G1 C :=
    let n := (length g / 2)%nat in
    gadd (gadd (msm (drop n a) (take n g)) (msm (take n b) (drop n h))) (gmul (dot (drop n a) (take n b)) U).

  (** One round preserves the relation. *)
  Lemma ipa_round x U a b g h k : x <> 0 ->
    length a = (2 ^ S k)%nat -> length b = (2 ^ S k)%nat -> length g = (2 ^ S k)%nat -> length h = (2 ^ S k)%nat ->
    gadd (gadd (gmul (x * x) (ipa_L U a b g h)) (ipa_com U a b g h)) (gmul (zinv (x * x)) (ipa_R U a b g h))
    = ipa_com U (folda x a) (foldb x b) (foldg x g) (foldh x h).
  Proof.
    intros Hx Ha Hb Hg Hh.
    assert (Hxx : x * x <> 0) by (by apply zmul_neq_0).
    assert (Ey : zinv (x * x) = zinv x * zinv x) by (field; done).
    assert (E1 : x * zinv x = 1) by (field; done).
    rewrite Ey. clear Ey.
    unfold ipa_L, ipa_R, ipa_com, folda, foldb, foldg, foldh. rewrite Ha, Hb, Hg, Hh, half_pow2.
    set (n := (2 ^ k)%nat) in *.
    assert (H2 : (2 ^ S k = n + n)%nat) by (subst n; cbn; lia). rewrite H2 in *.
    rewrite (msm_split n a g), (msm_split n b h), (dot_split n a b).
    assert (La : length (take n a) = length (drop n a)) by (rewrite take_length, drop_length; lia).
    assert (Lb : length (take n b) = length (drop n b)) by (rewrite take_length, drop_length; lia).
    assert (Lg : length (take n g) = length (drop n g)) by (rewrite take_length, drop_length; lia).
    assert (Lh : length (take n h) = length (drop n h)) by (rewrite take_length, drop_length; lia).
    rewrite !msm_vadd, !msm_gvadd, !msm_gvscale, !msm_vscale by (rewrite ?vscale_length, ?gvscale_length; done).
    rewrite !dot_vadd_l, !dot_vadd_r, !dot_vscale_l, !dot_vscale_r by (rewrite !vscale_length; done).
    generalize (take n a) (drop n a) (take n b) (drop n b) (take n g) (drop n g) (take n h) (drop n h).
    intros a1 a2 b1 b2 g1 g2 h1 h2.
    generalize dependent (zinv x). intros y Hy.
    module_pre; ring [Hy].
  Qed.

  Lemma ipa_prove_spec k : forall fuel pp a b P g h, (k < fuel)%nat ->
    length a = (2 ^ k)%nat -> length b = (2 ^ k)%nat -> length g = (2 ^ k)%nat -> length h = (2 ^ k)%nat ->
    exists LRs, length LRs = (2 * k)%nat /\
      let xs := chal (bp_Digest pp) LRs in
      ipa_prove fuel pp a b P g h = Ret (LRs, (dot a (hco xs), dot b (gco xs))) /\
      (Forall (fun x => x <> 0) xs ->
       gadd (ipa_com (bp_U pp) a b g h) (lrsum xs LRs) = ipa_rhs pp xs g h (dot a (hco xs)) (dot b (gco xs))).
  Proof.
    induction k as [|k IH]; intros fuel pp a b P g h Hf Ha Hb Hg Hh; (destruct fuel as [|fuel]; [lia|]).
    - destruct a as [|a0 [|]]; try (cbn in Ha; lia). destruct b as [|b0 [|]]; try (cbn in Hb; lia).
      destruct g as [|g0 [|]]; try (cbn in Hg; lia). destruct h as [|h0 [|]]; try (cbn in Hh; lia).
      exists []. split; [done|]. cbn zeta. split.
      + cbn -[zadd zmul]. do 3 f_equal; ring.
      + intros _. cbn [chal lrsum]. unfold ipa_com, ipa_rhs. change (gco []) with [1]. change (hco []) with [1]. cbn [msm dot]. module.
    - cbn [ipa_prove]. rewrite Hg, Hh, Nat.eqb_refl, pow2_ne1.
      assert (Hhalf := half_pow2 k). rewrite Hhalf.
      assert (H2 : (2 ^ S k = 2 ^ k + 2 ^ k)%nat) by (cbn; lia).
      assert (Hn0 : (2 ^ k <> 0)%nat) by (apply Nat.pow_nonzero; lia).
      rewrite !slice_to_spec, !slice_from_spec by lia. cbn [rbind].
      rewrite !vec_innerprod_spec by (rewrite take_length, drop_length; lia). cbn [rbind].
      assert (Hne : forall (M : Type) (l : list M), (0 < length l)%nat -> l <> []) by (intros M [|]; cbn; [lia|done]).
      rewrite !vec_exp_spec by (try apply Hne; rewrite ?take_length, ?drop_length; lia). cbn [rbind].
      set (L := gadd (gadd _ _) _). set (R := gadd (gadd _ _) _).
      assert (EL : L = ipa_L (bp_U pp) a b g h) by (unfold ipa_L; rewrite Hg, Hhalf; done).
      assert (ER : R = ipa_R (bp_U pp) a b g h) by (unfold ipa_R; rewrite Hg, Hhalf; done).
      rewrite next_spec by lia. cbn zeta. cbn [rbind np_x np_xInv np_P np_g np_h].
      set (x := round_x (bp_Digest pp) L R).
      rewrite !vec_mul_spec, !vec_add_spec by (rewrite !vscale_length, take_length, drop_length; lia). cbn [rbind].
      replace (vadd (vscale x (take (2 ^ k) a)) (vscale (zinv x) (drop (2 ^ k) a))) with (folda x a)
        by (unfold folda; rewrite Ha, Hhalf; done).
      replace (vadd (vscale (zinv x) (take (2 ^ k) b)) (vscale x (drop (2 ^ k) b))) with (foldb x b)
        by (unfold foldb; rewrite Hb, Hhalf; done).
      set (P' := gadd (gadd (gmul (x * x) L) P) _).
      destruct (IH fuel pp (folda x a) (foldb x b) P' (foldg x g) (foldh x h)) as (LRs & HLR & Hrun & Heq);
        [lia|by apply folda_length|by apply foldb_length|by apply foldg_length|by apply foldh_length|].
      exists (L :: R :: LRs). split; [cbn [length]; lia|]. cbn zeta. cbn [chal]. fold x.
      set (xs := chal (bp_Digest pp) LRs) in *.
      assert (Hxs : length xs = k) by (by apply chal_length).
      split.
      + rewrite Hrun. cbn [rbind fst snd]. rewrite dot_folda, dot_foldb by (rewrite Hxs; done). done.
      + intros Hnz. apply Forall_cons in Hnz. destruct Hnz as [Hx Hnz]. specialize (Heq Hnz).
        unfold ipa_rhs in *. rewrite dot_folda, dot_foldb in Heq by (rewrite Hxs; done).
        rewrite msm_foldg, msm_foldh in Heq by (rewrite Hxs; done). rewrite <- Heq. clear Heq.
        rewrite <- (ipa_round x (bp_U pp) a b g h k) by done. rewrite <- EL, <- ER. cbn [lrsum].
        generalize (zinv (x * x)). intros y. module.
  Qed.

  Lemma commit_acc_spec acc g a : (length a <= length g)%nat -> commit_acc acc g a = Ret (gadd acc (msm a g)).
  Proof.
    revert acc g; induction a as [|x a IH]; intros acc g H; cbn [commit_acc msm].
    - rewrite gadd_0_r. done.
    - destruct g as [|P g]; [cbn in H; lia|]. cbn [commit_acc]. rewrite IH by (cbn in H; lia). cbn [msm]. f_equal. module.
  Qed.
  Lemma bp_commit_spec pp a b : length a = length b -> a <> [] ->
    (length a <= length (bp_G pp))%nat -> (length b <= length (bp_H pp))%nat ->
    bp_commit pp a b = Ret (gadd (msm a (bp_G pp)) (msm b (bp_H pp))).
  Proof.
    intros Hl Hne HG HH. unfold bp_commit. rewrite (proj2 (Nat.eqb_eq _ _) Hl).
    destruct a as [|a0 a]; [done|]. destruct b as [|b0 b]; [done|].
    destruct (bp_G pp) as [|G0 G]; [cbn in HG; lia|]. destruct (bp_H pp) as [|H0 H]; [cbn in HH; lia|].
    rewrite !commit_acc_spec by (cbn in HG, HH; lia). cbn [rbind msm]. done.
  Qed.
  Lemma new_ipa_spec pp a b : length a = length b -> a <> [] ->
    (length a <= length (bp_G pp))%nat -> (length b <= length (bp_H pp))%nat ->
    NewInnerProdArgument pp a b = Ret (MkIPA pp a b (dot a b) (gadd (msm a (bp_G pp)) (msm b (bp_H pp)))).
  Proof.
    intros. unfold NewInnerProdArgument. rewrite vec_innerprod_spec, bp_commit_spec by done. done.
  Qed.

  (** The honest proof for an arbitrary argument record (the range and sum provers call [Prove] with
      their own P). *)
  Lemma ipa_Prove_spec k pp a b c P :
    length a = (2 ^ k)%nat -> length b = (2 ^ k)%nat -> length (bp_G pp) = (2 ^ k)%nat -> length (bp_H pp) = (2 ^ k)%nat ->
    exists LRs, length LRs = (2 * k)%nat /\
      let xs := chal (inst_digest pp) LRs in
      IPA_Prove (MkIPA pp a b c P) = Ret (MkIPP LRs (dot a (hco xs)) (dot b (gco xs)) P c) /\
      (Forall (fun x => x <> 0) xs ->
       gadd (ipa_com (gmul (inst_x pp) (bp_U pp)) a b (bp_G pp) (bp_H pp)) (lrsum xs LRs) =
       ipa_rhs (inst_pp pp) xs (bp_G pp) (bp_H pp) (dot a (hco xs)) (dot b (gco xs))).
  Proof.
    intros Ha Hb HG HH. unfold IPA_Prove. cbn [ipa_pp ipa_P ipa_C ipa_a ipa_b].
    rewrite instance_spec by (right; lia). cbn [rbind].
    destruct (ipa_prove_spec k (S (length (bp_G pp))) (inst_pp pp) a b
      (gadd P (gmul (inst_x pp * c) (bp_U pp))) (bp_G pp) (bp_H pp)) as (LRs & HL & Hrun & Heq); [|done..|].
    { rewrite HG. pose proof (Nat.pow_gt_lin_r 2 k). lia. }
    exists LRs. split; [done|]. cbn zeta. cbn [inst_pp bp_Digest] in Hrun, Heq. split.
    - rewrite Hrun. done.
    - exact Heq.
  Qed.

  (** Verdict on an honestly computed proof body for any claimed P and C. *)
  Lemma ipa_honest_body_iff k pp a b c P c' P' :
    length a = (2 ^ k)%nat -> length b = (2 ^ k)%nat -> length (bp_G pp) = (2 ^ k)%nat -> length (bp_H pp) = (2 ^ k)%nat ->
    exists LRs al be, IPA_Prove (MkIPA pp a b c P) = Ret (MkIPP LRs al be P c) /\
      length LRs = (2 * k)%nat /\
      (Forall (fun x => x <> 0) (chal (inst_digest pp) LRs) ->
       exists e, IPP_Verify (MkIPP LRs al be P' c') pp = Ret e /\
       (e = nil_error <->
        gadd P' (gmul (inst_x pp * c') (bp_U pp)) =
        ipa_com (gmul (inst_x pp) (bp_U pp)) a b (bp_G pp) (bp_H pp))).
  Proof.
    intros Ha Hb HG HH.
    destruct (ipa_Prove_spec k pp a b c P) as (LRs & HL & Hrun & Heq); [done..|]. cbn zeta in *.
    set (xs := chal (inst_digest pp) LRs) in *.
    exists LRs, (dot a (hco xs)), (dot b (gco xs)). split; [done|]. split; [done|].
    intros Hnz. specialize (Heq Hnz).
    destruct (ipp_verify_spec k pp (MkIPP LRs (dot a (hco xs)) (dot b (gco xs)) P' c')) as (e & He & Hiff);
      [done|done|cbn [ipp_LRs]; lia|].
    exists e. split; [exact He|]. rewrite Hiff. clear He Hiff Hrun.
    cbn [ipp_LRs ipp_a ipp_b ipp_P ipp_C]. rewrite take_ge by lia. fold xs.
    unfold ipa_rhs in Heq. cbn [inst_pp bp_U] in Heq. rewrite <- gmul_mul in Heq. rewrite <- Heq.
    split; intros E.
    - exact (gadd_cancel_r _ _ _ E).
    - rewrite E. done.
  Qed.
End IPA.
