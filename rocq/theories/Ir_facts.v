(** Closed forms of the iterated reduction. *)
From Verif Require Export Model_ir.
Local Open Scope Zr_scope.

(** coefficients of the folded vector and of the folded generators *)
Definition vco (xs : list Zr) : list Zr := kron ((fun x => (1, x)) <$> xs).
Definition wco (xs : list Zr) : list Zr := kron ((fun x => (1, zinv x)) <$> xs).
Lemma vco_length xs : length (vco xs) = (2 ^ length xs)%nat.
Proof. unfold vco. rewrite kron_length, fmap_length. done. Qed.
Lemma wco_length xs : length (wco xs) = (2 ^ length xs)%nat.
Proof. unfold wco. rewrite kron_length, fmap_length. done. Qed.
Lemma vscale_1 a : vscale 1 a = a.
Proof. induction a as [|x a IH]; [done|]. cbn. f_equal; [ring|exact IH]. Qed.
Lemma gvscale_1 {M : Grp} (a : list M) : gvscale 1 a = a.
Proof. induction a as [|x a IH]; [done|]. cbn. f_equal; [apply gmul_1|exact IH]. Qed.

Section IR.
  Context {C : Curve}.
  Implicit Types (pp : bpPP C) (G : list (G1 C)).

  Definition ir_x (D : bytes) (A B V : G1 C) : Zr :=
    fe (sha256 C (sha256 C (enc1 C A ++ enc1 C B ++ D) ++ enc1 C V)).
  (** the challenges the verifier computes from its inputs *)
  Fixpoint ir_chal (D : bytes) (V : G1 C) (Δ : list (G1 C * G1 C * G1 C)) : list Zr :=
    match Δ with [] => [] | (A, B, V') :: Δ => ir_x D A B V :: ir_chal D V' Δ end.
  (** the round equations *)
  Fixpoint ir_rounds (xs : list Zr) (V : G1 C) (Δ : list (G1 C * G1 C * G1 C)) : Prop :=
    match xs, Δ with
    | x :: xs, (A, B, V') :: Δ => V' = gadd (gadd V (gmul x A)) (gmul (zinv x) B) /\ ir_rounds xs V' Δ
    | _, _ => True
    end.
  Definition ir_last (V : G1 C) (Δ : list (G1 C * G1 C * G1 C)) : G1 C :=
    default V (snd <$> last Δ).
  Lemma ir_chal_length D V Δ : length (ir_chal D V Δ) = length Δ.
  Proof. revert V. induction Δ as [|[[A B] V'] Δ IH]; intros V; [done|]. cbn. f_equal. apply IH. Qed.

  Definition foldG (x : Zr) (n : nat) G : list (G1 C) := gvadd (take n G) (gvscale (zinv x) (drop n G)).
  Lemma foldG_length x n G : length G = (n + n)%nat -> length (foldG x n G) = n.
  Proof. intros H. unfold foldG. rewrite gvadd_length; rewrite ?gvscale_length, ?take_length, ?drop_length; lia. Qed.
  Lemma msm_foldG x xs G : length G = (2 ^ S (length xs))%nat ->
    msm (wco xs) (foldG x (2 ^ length xs) G) = msm (wco (x :: xs)) G.
  Proof.
    intros H. unfold foldG. rewrite <- (gvscale_1 (take _ G)).
    rewrite msm_fold2; [done|apply wco_length|rewrite H; cbn; lia].
  Qed.
  Lemma half_half_pow k : (2 ^ S k / 2)%nat = (2 ^ k)%nat.
  Proof. apply half_pow2. Qed.
  Lemma pow2_S_pred k : exists m, (2 ^ k)%nat = S m.
  Proof. pose proof (Nat.pow_nonzero 2 k ltac:(lia)). destruct (2 ^ k)%nat as [|m]; [lia|by exists m]. Qed.

  (** one round of the verifier's loop *)
  Lemma iv_loop_round k pp A B V' Δ G V xs0 fV vf : length G = (2 ^ S k)%nat ->
    iv_loop pp ((A, B, V') :: Δ) (2 ^ k) G V xs0 fV vf =
    let x := ir_x (bp_Digest pp) A B V in
    if geqb V' (gadd (gadd (gmul x A) (gmul (zinv x) B)) V)
    then iv_loop pp Δ (2 ^ k / 2) (foldG x (2 ^ k) G) V' (xs0 ++ [x]) (Some V') vf
    else Ret (inr "V != A^xB^{x^{-1}}V"%string).
  Proof.
    intros HG. destruct (pow2_S_pred k) as [m Hm]. cbn [iv_loop]. rewrite Hm. unfold appendVToChallenge, randomOracle.
    rewrite fe_sha. cbn [rbind]. unfold invertZr. fold (ir_x (bp_Digest pp) A B V). cbv zeta.
    destruct (geqb V' _); [|done].
    assert (H2 : length G = (S m + S m)%nat) by (rewrite HG; cbn [Nat.pow]; lia).
    rewrite slice_to_spec, slice_from_spec by lia. cbn [rbind].
    rewrite g1v_mul_spec, g1v_add_spec by (rewrite gvscale_length, take_length, drop_length; lia). done.
  Qed.

  Lemma iv_loop_spec k : forall pp Δ G V xs0 fV vf, length G = (2 ^ S k)%nat -> (S k <= length Δ)%nat ->
    let xs := ir_chal (bp_Digest pp) V (take (S k) Δ) in
    exists res, iv_loop pp Δ (2 ^ k) G V xs0 fV vf = Ret res /\
      ((ir_rounds xs V Δ /\ ir_last V (take (S k) Δ) = gmul vf (msm (wco xs) G) /\ res = inl (xs0 ++ xs, vf)) \/
       (~ (ir_rounds xs V Δ /\ ir_last V (take (S k) Δ) = gmul vf (msm (wco xs) G)) /\ exists msg, res = inr msg)).
  Proof.
    induction k as [|k IH]; intros pp [|[[A B] V'] Δ] G V xs0 fV vf HG HΔ; try (cbn in HΔ; lia).
    - rewrite iv_loop_round by done. cbn zeta. cbn [take ir_chal ir_rounds].
      replace (take 0 Δ) with (@nil (G1 C * G1 C * G1 C)) by (destruct Δ; done). cbn [ir_chal ir_rounds].
      set (x := ir_x (bp_Digest pp) A B V).
      destruct (geqb V' _) eqn:E.
      + apply geqb_eq in E.
        assert (EV : V' = gadd (gadd V (gmul x A)) (gmul (zinv x) B)) by (rewrite E; generalize (zinv x); intros y; module).
        destruct G as [|G0 [|G1' [|]]]; try (cbn in HG; lia).
        change (foldG x (2 ^ 0) [G0; G1']) with [gadd G0 (gmul (zinv x) G1')]. change (2 ^ 0 / 2)%nat with 0%nat.
        unfold wco. cbn [fmap list_fmap kron vscale app msm]. 
        set (K := gmul vf _).
        assert (EK : K = gmul vf (gadd G0 (gmul (zinv x) G1'))) by (subst K; generalize (zinv x); intros y; module).
        change (ir_last V [(A, B, V')]) with V'. rewrite EK.
        assert (Hrun : iv_loop pp Δ 0 [gadd G0 (gmul (zinv x) G1')] V' (xs0 ++ [x]) (Some V') vf =
          if geqb (gmul vf (gadd G0 (gmul (zinv x) G1'))) V' then Ret (inl (xs0 ++ [x], vf)) else Ret (inr "final equation check failed"%string))
          by (destruct Δ; done).
        rewrite Hrun. destruct (geqb _ V') eqn:E2; [apply geqb_eq in E2|apply geqb_neq in E2]; eexists; (split; [reflexivity|]).
        * left. split; [split; [done|destruct Δ; done]|]. split; [congruence|done].
        * right. split; [intros [_ H]; congruence|by eexists].
      + apply geqb_neq in E. eexists; split; [reflexivity|]. right. split; [|by eexists].
        intros [[H _] _]. apply E. rewrite H. generalize (zinv x). intros y. module.
    - rewrite iv_loop_round by done. cbn zeta. change (take (S (S k)) ((A, B, V') :: Δ)) with ((A, B, V') :: take (S k) Δ).
      cbn [ir_chal ir_rounds].
      set (x := ir_x (bp_Digest pp) A B V).
      rewrite half_half_pow.
      assert (HfG : length (foldG x (2 ^ S k) G) = (2 ^ S k)%nat) by (apply foldG_length; rewrite HG; cbn; lia).
      destruct (geqb V' _) eqn:E.
      + apply geqb_eq in E.
        assert (EV : V' = gadd (gadd V (gmul x A)) (gmul (zinv x) B)) by (rewrite E; generalize (zinv x); intros y; module).
        destruct (IH pp Δ (foldG x (2 ^ S k) G) V' (xs0 ++ [x]) (Some V') vf HfG) as (res & Hrun & Hres); [cbn in HΔ; lia|].
        exists res. split; [exact Hrun|]. clear Hrun IH. cbn zeta in Hres.
        set (xs := ir_chal (bp_Digest pp) V' (take (S k) Δ)) in *.
        assert (Hxs : length xs = S k) by (unfold xs; rewrite ir_chal_length, take_length; cbn in HΔ; lia).
        assert (EG : msm (wco xs) (foldG x (2 ^ S k) G) = msm (wco (x :: xs)) G) by (rewrite <- Hxs; apply msm_foldG; rewrite Hxs; done).
        rewrite EG in Hres.
        assert (EL : ir_last V ((A, B, V') :: take (S k) Δ) = ir_last V' (take (S k) Δ)).
        { unfold ir_last. destruct (take (S k) Δ) as [|d l]; [done|]. rewrite last_cons. destruct (last (d :: l)) eqn:El; [done|].
          apply last_None in El. done. }
        rewrite EL. destruct Hres as [(H1 & H2 & H3)|(H1 & H2)].
        * left. split; [done|]. split; [done|]. rewrite H3, <- app_assoc. done.
        * right. split; [|done]. intros [[_ H3] H4]. apply H1. done.
      + apply geqb_neq in E. eexists; split; [reflexivity|]. right. split; [|by eexists].
        intros [[H _] _]. apply E. rewrite H. generalize (zinv x). intros y. module.
  Qed.

  Lemma iv_loop_short k : forall pp Δ G V xs0 fV vf, length G = (2 ^ S k)%nat -> (length Δ < S k)%nat ->
    iv_loop pp Δ (2 ^ k) G V xs0 fV vf = Panic \/ exists msg, iv_loop pp Δ (2 ^ k) G V xs0 fV vf = Ret (inr msg).
  Proof.
    induction k as [|k IH]; intros pp [|[[A B] V'] Δ] G V xs0 fV vf HG HΔ; try (cbn in HΔ; lia).
    - left. done.
    - left. destruct (pow2_S_pred (S k)) as [m Hm]. cbn [iv_loop]. rewrite Hm. done.
    - rewrite iv_loop_round by done. cbv zeta. rewrite half_half_pow. destruct (geqb V' _); [|right; by eexists].
      apply IH; [apply foldG_length; rewrite HG; cbn; lia|cbn in HΔ; lia].
  Qed.

  Lemma ir_pow2_len n k : n = (2 ^ k)%nat -> (1 <= k < 16)%nat -> IsPowerOfTwo (uint16 n) = Ret true.
  Proof. intros ->. apply IsPowerOfTwo_pow2. Qed.

  Lemma iterative_verify_spec k pp V Δ vf : length (bp_G pp) = (2 ^ k)%nat -> (1 <= k < 16)%nat -> (k <= length Δ)%nat ->
    let xs := ir_chal (bp_Digest pp) V (take k Δ) in
    exists res, IterativeVerify pp V Δ vf = Ret res /\
      ((ir_rounds xs V Δ /\ ir_last V (take k Δ) = gmul vf (msm (wco xs) (bp_G pp)) /\ res = inl (xs, vf)) \/
       (~ (ir_rounds xs V Δ /\ ir_last V (take k Δ) = gmul vf (msm (wco xs) (bp_G pp))) /\ exists msg, res = inr msg)).
  Proof.
    intros HG Hk HΔ. unfold IterativeVerify. rewrite (ir_pow2_len _ k) by done. cbn [rbind]. rewrite HG.
    destruct k as [|k]; [lia|]. rewrite half_half_pow. apply (iv_loop_spec k pp Δ (bp_G pp) V [] None vf); done.
  Qed.

  (** the prover *)
  Definition foldv (x : Zr) (n : nat) (v : list Zr) : list Zr := vadd (take n v) (vscale x (drop n v)).
  Lemma foldv_length x n v : length v = (n + n)%nat -> length (foldv x n v) = n.
  Proof. intros H. unfold foldv. rewrite vadd_length; rewrite ?vscale_length, ?take_length, ?drop_length; lia. Qed.
  Lemma dot_foldv x xs v : length v = (2 ^ S (length xs))%nat -> dot (foldv x (2 ^ length xs) v) (vco xs) = dot v (vco (x :: xs)).
  Proof.
    intros H. unfold foldv. rewrite <- (vscale_1 (take _ v)).
    rewrite dot_fold2; [done|apply vco_length|rewrite H; cbn; lia].
  Qed.
  Lemma ir_round x n v G : x <> 0 -> length v = (n + n)%nat -> length G = (n + n)%nat ->
    msm (foldv x n v) (foldG x n G) =
    gadd (gadd (msm v G) (gmul x (msm (drop n v) (take n G)))) (gmul (zinv x) (msm (take n v) (drop n G))).
  Proof.
    intros Hx Hv HG. unfold foldv, foldG. rewrite (msm_split n v G).
    assert (Lv : length (take n v) = length (drop n v)) by (rewrite take_length, drop_length; lia).
    assert (LG : length (take n G) = length (drop n G)) by (rewrite take_length, drop_length; lia).
    rewrite !msm_vadd, !msm_gvadd, !msm_gvscale, !msm_vscale by (rewrite ?vscale_length, ?gvscale_length; done).
    assert (Hy : x * zinv x = 1) by (field; done). generalize dependent (zinv x). intros y Hy.
    module_pre; ring [Hy].
  Qed.

  Lemma nonempty_len {A} (l : list A) : (0 < length l)%nat -> l <> [].
  Proof. destruct l; cbn; [lia|done]. Qed.

  Lemma ir_loop_spec k : forall fuel pp G v V Δ0 xs0, length G = (2 ^ S k)%nat -> length v = (2 ^ S k)%nat -> (k < fuel)%nat ->
    exists Δ, length Δ = S k /\
      let xs := ir_chal (bp_Digest pp) V Δ in
      ir_loop fuel pp (2 ^ k) G v V Δ0 xs0 = Ret (Δ0 ++ Δ, xs0 ++ xs, [dot v (vco xs)]) /\
      (Forall (fun x => x <> 0) xs -> V = msm v G ->
       ir_rounds xs V Δ /\ ir_last V Δ = gmul (dot v (vco xs)) (msm (wco xs) G)).
  Proof.
    induction k as [|k IH]; intros fuel pp G v V Δ0 xs0 HG Hv Hf; (destruct fuel as [|fuel]; [lia|]).
    all: match goal with |- context [ir_loop _ _ (2 ^ ?k)] => destruct (pow2_S_pred k) as [m Hm] end.
    all: match type of Hm with (2 ^ ?k)%nat = _ => assert (H2 : (2 ^ S k = 2 ^ k + 2 ^ k)%nat) by (cbn; lia) end.
    all: rewrite H2, Hm in *; set (n := S m) in *.
    all: assert (LGL : length (take n G) = n) by (rewrite take_length; lia).
    all: assert (LGR : length (drop n G) = n) by (rewrite drop_length; lia).
    all: assert (LvL : length (take n v) = n) by (rewrite take_length; lia).
    all: assert (LvR : length (drop n v) = n) by (rewrite drop_length; lia).
    all: set (A := msm (drop n v) (take n G)); set (B := msm (take n v) (drop n G)).
    all: set (x := ir_x (bp_Digest pp) A B V).
    all: assert (Hstep : ir_loop (S fuel) pp n G v V Δ0 xs0 =
      ir_loop fuel pp (n / 2) (foldG x n G) (foldv x n v) (msm (foldv x n v) (foldG x n G))
        (Δ0 ++ [(A, B, msm (foldv x n v) (foldG x n G))]) (xs0 ++ [x])).
    1,3: unfold n; cbn [ir_loop]; fold n; rewrite !slice_to_spec, !slice_from_spec by lia; cbn [rbind];
      rewrite !g1v_mulv_sum by (first [lia|apply nonempty_len; lia]); cbn [rbind];
      unfold appendVToChallenge, randomOracle; rewrite fe_sha; cbn [rbind]; fold A B; fold (ir_x (bp_Digest pp) A B V); fold x;
      unfold invertZr; rewrite g1v_mul_spec, g1v_add_spec by (rewrite gvscale_length; lia); cbn [rbind];
      rewrite vec_mul_spec, vec_add_spec by (rewrite vscale_length; lia); cbn [rbind];
      fold (foldG x n G); fold (foldv x n v);
      rewrite g1v_mulv_sum by (first [rewrite foldG_length, foldv_length by done; done|apply nonempty_len; rewrite foldG_length by done; lia]);
      cbn [rbind]; done.
    all: rewrite Hstep; clear Hstep.
    - assert (m = 0)%nat by (cbn in Hm; lia). subst m. change (n / 2)%nat with 0%nat.
      set (V' := msm (foldv x n v) (foldG x n G)) in *.
      exists [(A, B, V')]. split; [done|]. cbn zeta. cbn [ir_chal]. fold x.
      assert (Hrun : forall Δ xs v, ir_loop fuel pp 0 (foldG x n G) v V' Δ xs = Ret (Δ, xs, v)) by (destruct fuel; done).
      rewrite Hrun.
      assert (Ev : foldv x n v = [dot v (vco [x])]).
      { destruct v as [|v0 [|v1 [|]]]; try (cbn in Hv; lia). unfold vco. cbn. f_equal. ring. }
      split.
      + rewrite Ev. done.
      + intros Hnz HV. apply Forall_cons in Hnz. destruct Hnz as [Hx _].
        split; [split; [|done]|].
        * rewrite HV. unfold V', A, B. apply ir_round; done.
        * change (ir_last V [(A, B, V')]) with V'. unfold V'. rewrite Ev. 
          destruct G as [|G0 [|G1' [|]]]; try (cbn in HG; lia). unfold wco. cbn [fmap list_fmap kron vscale app msm].
          change (foldG x n [G0; G1']) with [gadd G0 (gmul (zinv x) G1')]. cbn [msm].
          generalize (dot v (vco [x])) (zinv x). intros z y. module.
    - assert (Hn2 : (n / 2 = 2 ^ k)%nat) by (rewrite <- half_half_pow, Hm; done). rewrite Hn2.
      set (V' := msm (foldv x n v) (foldG x n G)) in *.
      destruct (IH fuel pp (foldG x n G) (foldv x n v) V' (Δ0 ++ [(A, B, V')]) (xs0 ++ [x])) as (Δ & HΔ & Hrun & Heq);
        [rewrite foldG_length by done; done|rewrite foldv_length by done; done|lia|].
      exists ((A, B, V') :: Δ). split; [cbn; lia|]. cbn zeta in *. cbn [ir_chal]. fold x.
      set (xs := ir_chal (bp_Digest pp) V' Δ) in *.
      assert (Hxs : length xs = S k) by (unfold xs; rewrite ir_chal_length; done).
      assert (Hn : n = (2 ^ length xs)%nat) by (rewrite Hxs, Hm; done).
      assert (Hd : dot (foldv x n v) (vco xs) = dot v (vco (x :: xs))).
      { rewrite Hn. apply dot_foldv. rewrite Hv, Hxs, Hn, Hxs. cbn. lia. }
      rewrite Hd in *. rewrite <- !app_assoc in Hrun. split; [exact Hrun|].
      intros Hnz HV. apply Forall_cons in Hnz. destruct Hnz as [Hx Hnz]. destruct (Heq Hnz eq_refl) as [H1 H3].
      split; [split; [rewrite HV; unfold V', A, B; apply ir_round; done|exact H1]|].
      assert (EL : ir_last V ((A, B, V') :: Δ) = ir_last V' Δ).
      { unfold ir_last. destruct Δ as [|d l]; [done|]. rewrite last_cons. destruct (last (d :: l)) eqn:El; [done|].
        apply last_None in El. done. }
      rewrite EL, H3. f_equal. rewrite Hn. apply msm_foldG. rewrite HG, Hxs, Hn, Hxs. cbn. lia.
  Qed.

  Lemma iterative_reduce_spec k pp v V : length (bp_G pp) = (2 ^ k)%nat -> length v = (2 ^ k)%nat -> (1 <= k < 16)%nat ->
    exists Δ, length Δ = k /\
      let xs := ir_chal (bp_Digest pp) V Δ in
      IterativeReduce pp v V = Ret (Δ, xs, dot v (vco xs)) /\
      (Forall (fun x => x <> 0) xs -> V = msm v (bp_G pp) ->
       ir_rounds xs V Δ /\ ir_last V Δ = gmul (dot v (vco xs)) (msm (wco xs) (bp_G pp))).
  Proof.
    intros HG Hv Hk. unfold IterativeReduce. rewrite (ir_pow2_len _ k) by done. cbn [rbind]. rewrite HG.
    destruct k as [|k]; [lia|]. rewrite half_half_pow.
    destruct (ir_loop_spec k (2 ^ S k) pp (bp_G pp) v V [] []) as (Δ & HΔ & Hrun & Heq); [done|done|pose proof (Nat.pow_gt_lin_r 2 (S k)); lia|].
    exists Δ. split; [done|]. cbn zeta in *. rewrite Hrun. cbn [rbind app length]. split; [done|exact Heq].
  Qed.

  (** ** The vector f that the range proof builds from the challenges *)
End IR.
