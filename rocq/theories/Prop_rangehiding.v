(** Property C77: range proofs reveal nothing but that the values are in range.
    Specification of "reveal nothing": [same_messages] in Hiding.v. *)
From Verif Require Import Hiding Range_prover Prop_range Extract Toy.
Local Open Scope Zr_scope.

Lemma vadd_swap a b c : vadd (vadd a b) c = vadd (vadd a c) b.
Proof. unfold vadd. revert b c. induction a as [|x a IH]; intros [|y b] [|z c]; try done. cbn. f_equal; [ring|apply IH]. Qed.
Lemma vadd_assoc a b c : vadd (vadd a b) c = vadd a (vadd b c).
Proof. unfold vadd. revert b c. induction a as [|x a IH]; intros [|y b] [|z c]; try done. cbn. f_equal; [ring|apply IH]. Qed.
Lemma masked_product z wC t y0v : length wC = length y0v -> length t = length y0v ->
  vadd (vmul wC y0v) (vscale z (vmul y0v t)) = vmul (vadd wC (vscale z t)) y0v.
Proof.
  unfold vadd, vmul, vscale. revert t y0v. induction wC as [|x wC IH]; intros [|u t] [|y y0v] H H'; try done. cbn. f_equal; [ring|].
  apply IH; cbn in *; lia.
Qed.

(** The bits of the values, least significant first, 63 for each *)
Definition vbits (v : list Zr) : list Zr := match Vec_Bits v rp_m with Ret l => zr <$> l | _ => [] end.
Lemma vbits_spec v : Forall in_range v -> exists l, Vec_Bits v rp_m = Ret l /\ zr <$> l = vbits v /\ length (vbits v) = (length v * rp_m)%nat /\
  vmul (vbits v) (vsub (ones (length v * rp_m)) (vbits v)) = zeros (length v * rp_m) /\
  forall f, length f = length v -> dot (vbits v) (dD f) = dot v f.
Proof.
  intros H. destruct (vec_bits_small v H) as (l & Hl & Hz & HL & Hd). exists l. unfold vbits. rewrite Hl. split; [done|]. split; [done|].
  split; [rewrite fmap_length; done|]. split; [rewrite <- HL; apply bits_complement; done|exact Hd].
Qed.

Section Run.
  Context {C : Curve} (k : nat) (pp : RPPP C) (V : G1 C).
  Let n := (2 ^ k)%nat.
  Let nm := (n * rp_m)%nat.
  Definition c_W w r' : G1 C := gadd (gmul r' (rp_F pp)) (msm w (rp_Gs pp)).
  Definition c_mask ν (s t : list Zr) : G1 C := gadd (gadd (gmul ν (rp_F pp)) (msm s (rp_Hs pp))) (msm t (take nm (rp_Fs pp))).
  Definition c_wC (bits : list Zr) : list Zr := vsub (ones nm) bits.
  Definition c_c1 (bits s t f : list Zr) x y0 y1 : Zr := rc1 nm n bits (take nm s) (drop nm s) t (dD f) (vscale x f) (PowerSeries nm y0) y1.
  Definition c_c2 (s t : list Zr) y0 : Zr := rc2 (take nm s) t (PowerSeries nm y0).
  Definition c_a (bits w s : list Zr) y1 z : list Zr := ra nm n bits w (take nm s) (drop nm s) y1 z.
  Definition c_b (bits t f : list Zr) x y0 y1 z : list Zr := rb nm n bits t (dD f) (vscale x f) (PowerSeries nm y0) y1 z.
  Definition c_C (c τ : Zr) : G1 C := gadd (gmul c (rp_G pp)) (gmul τ (rp_H pp)).

  Hypothesis Hwf : rp_wf k pp.

  Lemma range_run v r co : coins_ok n co -> length v = n -> Forall in_range v ->
    let bits := vbits v in
    let W := c_W (co_w co) (co_rPrime co) in let Q := c_mask (co_ν co) (bits ++ co_w co) (c_wC bits) in
    let x := rg_x pp V W Q in let γ := - (r + x * co_rPrime co) in let U := rg_U pp V W γ x in
    let wR := vadd v (vscale x (co_w co)) in
    exists Δ, length Δ = k /\ let f := vco (ir_chal (bp_Digest (rg_rdx pp)) U Δ) in length f = n /\
      (exists xs, IterativeReduce (rg_rdx pp) wR U = Ret (Δ, xs, dot wR f)) /\
      let R := c_mask (co_η co) (co_s co) (co_t co) in
      let y0 := rg_y pp 0 x Q R in let y1 := rg_y pp 1 x Q R in
      let C1 := c_C (c_c1 bits (co_s co) (co_t co) f x y0 y1) (co_τ1 co) in let C2 := c_C (c_c2 (co_s co) (co_t co) y0) (co_τ2 co) in
      let z := rg_z pp C1 C2 Q R y0 y1 in
      let a := c_a bits (co_w co) (co_s co) y1 z in let b := c_b bits (co_t co) f x y0 y1 z in
      ProveRange_unchecked pp V v r co =
        let! ipa := NewInnerProdArgument (rg_ipa pp y0) a b in let! ipp := IPA_Prove ipa in
        Ret (MkRP Δ (dot wR f) W γ ipp (dot a b) Q R C1 C2 (co_τ1 co * z + co_τ2 co * (z * z)) (- (co_ν co + co_η co * z)), rg_ipa pp y0).
  Proof.
    intros (Lw & Ls & Lt) Hv Hsmall. pose proof Hwf as (Hk & HG & HH & HF). cbv zeta.
    pose proof (Nat.pow_nonzero 2 k ltac:(lia)) as Hn0.
    destruct (vbits_spec v Hsmall) as (l & Hbits & Hbe & Lb & _ & Hdot). rewrite Hv in Lb. fold nm in Lb.
    destruct co as [w r' ν η s t τ1 τ2]. cbn [co_w co_rPrime co_ν co_η co_s co_t co_τ1 co_τ2] in *.
    fold n in HG, HH, HF, Hn0 |- *. fold nm in HH, HF, Ls, Lt |- *.
    assert (Hnm : (0 < nm)%nat) by (unfold nm, rp_m; lia).
    set (bits := vbits v) in *. set (W := c_W w r'). set (wC := c_wC bits).
    assert (LwC : length wC = nm) by (unfold wC, c_wC; rewrite vsub_length; rewrite ones_length; lia).
    set (Q := c_mask ν (bits ++ w) wC). set (x := rg_x pp V W Q). set (γ := - (r + x * r')). set (U := rg_U pp V W γ x).
    destruct (iterative_reduce_spec k (rg_rdx pp) (vadd v (vscale x w)) U) as (Δ & HΔ & Hrun & _);
      [exact HG|rewrite vadd_length; rewrite ?vscale_length; lia|done|]. cbv zeta in Hrun.
    exists Δ. split; [done|].
    set (xs := ir_chal (bp_Digest (rg_rdx pp)) U Δ) in *.
    assert (Hxs : length xs = k) by (unfold xs; rewrite ir_chal_length; done).
    set (f := vco xs) in *. assert (Hf : length f = n) by (unfold f; rewrite vco_length, Hxs; done). split; [exact Hf|].
    split; [exists xs; exact Hrun|].
    set (R := c_mask η s t). set (y0 := rg_y pp 0 x Q R). set (y1 := rg_y pp 1 x Q R).
    set (c1 := c_c1 _ _ _ _ _ _ _). set (c2 := c_c2 _ _ _). set (C1 := c_C c1 τ1). set (C2 := c_C c2 τ2).
    set (z := rg_z pp C1 C2 Q R y0 y1). set (a := c_a _ _ _ _ _). set (b := c_b _ _ _ _ _ _ _). set (u := dot (vadd v (vscale x w)) f) in *.
    unfold ProveRange_unchecked. cbn [co_w co_rPrime co_ν co_η co_s co_t co_τ1 co_τ2]. rewrite HG. fold nm.
    rewrite (mulv_sum (rp_Gs pp)) by (first [lia|apply nonempty_len; lia]). cbn [rbind].
    rewrite Hbits. cbn [rbind]. unfold IntsToZr. rewrite Hbe. 
    rewrite slice_to_spec by (rewrite app_length; lia). cbn [rbind]. rewrite take_app_alt by done.
    rewrite !ones_expand, vec_sub_spec by (rewrite ones_length; lia). cbn [rbind]. fold (c_wC bits). fold wC.
    rewrite (mulv_sum (rp_Hs pp) (bits ++ w)) by (first [rewrite app_length; lia|apply nonempty_len; lia]). cbn [rbind].
    rewrite !slice_to_spec by lia. cbn [rbind].
    rewrite (mulv_sum (take nm (rp_Fs pp)) wC) by (first [rewrite take_length; lia|apply nonempty_len; rewrite take_length; lia]). cbn [rbind].
    fold (c_W w r'). fold W. fold (c_mask ν (bits ++ w) wC). fold Q.
    rewrite rangeProofRO1_spec. cbn [rbind]. fold x.
    rewrite (negzr_opp (r + x * r')). fold γ. fold (rg_U pp V W γ x). fold U.
    rewrite ppRdx_spec. cbn [rbind]. rewrite vec_mul_spec, vec_add_spec by (rewrite vscale_length; lia). cbn [rbind].
    rewrite Hrun. cbn [rbind].
    unfold n at 1. rewrite compute_f_spec by done. cbn [rbind]. fold f.
    rewrite computeD_spec by done. cbn [rbind].
    rewrite (mulv_sum (rp_Hs pp) s) by (first [lia|apply nonempty_len; lia]). cbn [rbind].
    rewrite (mulv_sum (take nm (rp_Fs pp)) t) by (first [rewrite take_length; lia|apply nonempty_len; rewrite take_length; lia]). cbn [rbind].
    fold (c_mask η s t). fold R.
    rewrite !rp_y_spec. cbn [rbind]. fold y0 y1.
    rewrite !zeros_expand. unfold Vec_Concat.
    set (y0v := PowerSeries nm y0). assert (Ly : length y0v = nm) by apply power_series_length.
    set (D := dD f). assert (LD : length D = nm) by (unfold D; rewrite dD_length, Hf; done).
    change (dvec f x) with (D ++ vscale x f). set (E := vscale x f). assert (LE : length E = n) by (unfold E; rewrite vscale_length; done).
    set (sL := take nm s). set (sR := drop nm s). assert (Es : s = sL ++ sR) by (symmetry; apply take_drop).
    assert (LsL : length sL = nm) by (unfold sL; rewrite take_length; lia).
    assert (LsR : length sR = n) by (unfold sR; rewrite drop_length; lia).
    rewrite !vec_mul_spec.
    rewrite (vec_add_spec (bits ++ w)) by (rewrite !app_length, vscale_length, ones_length, zeros_length; lia). cbn [rbind].
    fold (ra' nm n bits w y1).
    rewrite (vec_add_spec (vscale (y1 * y1) (D ++ E))) by (rewrite !vscale_length, !app_length, zeros_length; lia). cbn [rbind].
    rewrite (vec_hadamard_spec wC) by lia. cbn [rbind].
    rewrite (vec_add_spec (vadd _ _)) by (rewrite vadd_length; rewrite ?vscale_length, ?app_length, ?zeros_length; rewrite ?vmul_length; lia). cbn [rbind].
    change (vadd (vadd (vscale (y1 * y1) (D ++ E)) (vscale y1 (y0v ++ zeros n))) (vmul wC y0v ++ zeros n)) with (rb' nm n bits D E y0v y1).
    rewrite (vec_hadamard_spec y0v) by lia. cbn [rbind].
    assert (Lra' : length (ra' nm n bits w y1) = (nm + n)%nat) by exact (ra'_length nm n bits w sL sR t D E y0v y1 Lb Lw LsL LsR Lt LD LE Ly).
    assert (Lrb' : length (rb' nm n bits D E y0v y1) = (nm + n)%nat) by exact (rb'_length nm n bits w sL sR t D E y0v y1 Lb Lw LsL LsR Lt LD LE Ly).
    rewrite (slice_to_spec nm (ra' _ _ _ _ _)) by lia. cbn [rbind].
    assert (Lyt : length (vmul y0v t) = nm) by (rewrite vmul_length; lia).
    rewrite (vec_innerprod_spec (take nm _)) by (rewrite take_length; lia). cbn [rbind].
    rewrite (vec_innerprod_spec s) by lia. cbn [rbind]. fold sL.
    rewrite (vec_innerprod_spec sL) by lia. cbn [rbind].
    assert (Ec1 : dot (take nm (ra' nm n bits w y1)) (vmul y0v t) + dot s (rb' nm n bits D E y0v y1) = c1).
    { unfold c1, c_c1, rc1. fold D E y0v sL sR. rewrite (ra'_split nm n bits w sL sR t D E y0v y1 Lb Lw LsL LsR Lt LD LE Ly). rewrite take_app_alt by (rewrite vadd_length; rewrite ?vscale_length, ?ones_length; lia). rewrite <- Es. done. }
    rewrite Ec1. change (dot sL (vmul y0v t)) with c2.
    fold (c_C c1 τ1) (c_C c2 τ2). fold C1 C2.
    rewrite computeZ_spec. cbn [rbind]. fold z. rewrite (negzr_opp (ν + η * z)).
    rewrite rp_Fprime_spec. cbn [rbind]. rewrite !vec_mul_spec.
    rewrite (vec_add_spec (ra' _ _ _ _ _)) by (rewrite vscale_length; lia). cbn [rbind].
    rewrite (vec_add_spec (rb' _ _ _ _ _ _ _)) by (rewrite vscale_length, app_length, zeros_length; lia). cbn [rbind].
    assert (Ea : vadd (ra' nm n bits w y1) (vscale z s) = a) by (unfold a, c_a, ra; rewrite take_drop; done). rewrite Ea.
    change (vadd (rb' nm n bits D E y0v y1) (vscale z (vmul y0v t ++ zeros n))) with b.
    assert (La : length a = (nm + n)%nat) by exact (ra_length nm n bits w sL sR t D E y0v y1 z Lb Lw LsL LsR Lt LD LE Ly).
    assert (Lbb : length b = (nm + n)%nat) by exact (rb_length nm n bits w sL sR t D E y0v y1 z Lb Lw LsL LsR Lt LD LE Ly).
    rewrite vec_innerprod_spec by lia. cbn [rbind]. rewrite rp_ipaPP_spec by lia. cbn [rbind]. done.
  Qed.
End Run.

(** ** Changing the witness *)
Lemma ra_remask nm n bits w bits' w' s y1 z : z <> 0 -> length bits = nm -> length w = n -> length bits' = nm -> length w' = n -> length s = (nm + n)%nat ->
  let s' := remask (zinv z) (bits ++ w) (bits' ++ w') s in
  ra nm n bits' w' (take nm s') (drop nm s') y1 z = ra nm n bits w (take nm s) (drop nm s) y1 z.
Proof.
  intros Hz Lb Lw Lb' Lw' Ls. cbv zeta. unfold ra, ra'. rewrite !take_drop. rewrite !(vadd_swap _ (vscale y1 _ ++ _)).
  f_equal. apply (remask_sum _ _ _ _ (nm + n)); rewrite ?app_length; lia || done.
Qed.
Lemma rb_remask nm n bits bits' t D E y0v y1 z : z <> 0 -> length bits = nm -> length bits' = nm -> length t = nm -> length y0v = nm ->
  let t' := remask (zinv z) (vsub (ones nm) bits) (vsub (ones nm) bits') t in
  rb nm n bits' t' D E y0v y1 z = rb nm n bits t D E y0v y1 z.
Proof.
  intros Hz Lb Lb' Lt Ly. cbv zeta. unfold rb, rb'.
  assert (LwC : length (vsub (ones nm) bits) = nm) by (rewrite vsub_length; rewrite ones_length; lia).
  assert (LwC' : length (vsub (ones nm) bits') = nm) by (rewrite vsub_length; rewrite ones_length; lia).
  set (wC := vsub (ones nm) bits) in *. set (wC' := vsub (ones nm) bits') in *. set (t' := remask _ _ _ _).
  assert (Lt' : length t' = nm) by (unfold t'; apply remask_length; done).
  assert (K : forall wC t, length wC = nm -> length t = nm ->
    vadd (vmul wC y0v ++ zeros n) (vscale z (vmul y0v t ++ zeros n)) = vmul (vadd wC (vscale z t)) y0v ++ vadd (zeros n) (vscale z (zeros n))).
  { clear - Ly. intros wC t H1 H2. rewrite <- masked_product by congruence. unfold vscale, vadd at 1. rewrite fmap_app. apply zip_with_app. 
    rewrite fmap_length. unfold vmul. rewrite !zip_with_length. lia. }
  rewrite !vadd_assoc. rewrite !K by done. unfold t'. rewrite (remask_sum _ _ _ _ nm) by done. done.
Qed.

Section Shift.
  Context {C : Curve} (k : nat) (pp : RPPP C) (V : G1 C) (HF : rp_F pp <> gzero) (HH : rp_H pp <> gzero).
  Let n := (2 ^ k)%nat.
  Let nm := (n * rp_m)%nat.

  (** The random values that make the same proof from the opening (v2, r2) of V as [co] from (v, r) *)
  Definition rg_shift (v v2 : list Zr) (r r2 : Zr) (rp : RangeProof C) (co : RangeCoins) : RangeCoins :=
    let x := rv_x pp rp V in let z := rv_z pp rp V in let y0 := rv_y0 pp rp V in let y1 := rv_y1 pp rp V in
    let f := vco (ir_chal (bp_Digest (rg_rdx pp)) (rv_U pp rp V) (rp_Δ rp)) in
    let b := vbits v in let b2 := vbits v2 in
    let w2 := remask (zinv x) v v2 (co_w co) in
    let s2 := remask (zinv z) (b ++ co_w co) (b2 ++ w2) (co_s co) in
    let t2 := remask (zinv z) (c_wC k b) (c_wC k b2) (co_t co) in
    MkCoins w2 (co_rPrime co + zinv x * (r - r2))
      (dlog (rp_F pp) HF (gadd (rp_Q rp) (gopp (c_mask k pp 0 (b2 ++ w2) (c_wC k b2)))))
      (dlog (rp_F pp) HF (gadd (rp_R rp) (gopp (c_mask k pp 0 s2 t2))))
      s2 t2
      (dlog (rp_H pp) HH (gadd (rp_C1 rp) (gopp (c_C pp (c_c1 k b2 s2 t2 f x y0 y1) 0))))
      (dlog (rp_H pp) HH (gadd (rp_C2 rp) (gopp (c_C pp (c_c2 k s2 t2 y0) 0)))).

  Lemma mask_fill Q ν s t : ν = dlog (rp_F pp) HF (gadd Q (gopp (c_mask k pp 0 s t))) -> c_mask k pp ν s t = Q.
  Proof.
    intros ->. unfold c_mask at 1. rewrite dlog_spec. unfold c_mask. generalize (msm s (rp_Hs pp)) (msm t (take (2 ^ k * rp_m) (rp_Fs pp))). intros A B.
    rewrite gmul_0. module.
  Qed.
  Lemma C_fill P c τ : τ = dlog (rp_H pp) HH (gadd P (gopp (c_C pp c 0))) -> c_C pp c τ = P.
  Proof. intros ->. unfold c_C at 1. rewrite dlog_spec. unfold c_C. rewrite gmul_0. module. Qed.
  Lemma mask_back Q ν s t : c_mask k pp ν s t = Q -> dlog (rp_F pp) HF (gadd Q (gopp (c_mask k pp 0 s t))) = ν.
  Proof.
    intros <-. replace (gadd _ _) with (gmul ν (rp_F pp)); [apply dlog_gmul|]. unfold c_mask.
    generalize (msm s (rp_Hs pp)) (msm t (take (2 ^ k * rp_m) (rp_Fs pp))). intros A B. rewrite gmul_0. module.
  Qed.
  Lemma C_back P c τ : c_C pp c τ = P -> dlog (rp_H pp) HH (gadd P (gopp (c_C pp c 0))) = τ.
  Proof. intros <-. replace (gadd _ _) with (gmul τ (rp_H pp)); [apply dlog_gmul|]. unfold c_C. rewrite gmul_0. module. Qed.

  Lemma mask_comb ν η s s2 t t2 z : length s = length s2 -> length t = length t2 ->
    gadd (c_mask k pp ν s t) (gmul z (c_mask k pp η s2 t2)) = c_mask k pp (ν + η * z) (vadd s (vscale z s2)) (vadd t (vscale z t2)).
  Proof.
    intros H1 H2. unfold c_mask. rewrite !msm_vadd, !msm_vscale by (rewrite vscale_length; done).
    generalize (msm s (rp_Hs pp)) (msm t (take (2 ^ k * rp_m) (rp_Fs pp))) (msm s2 (rp_Hs pp)) (msm t2 (take (2 ^ k * rp_m) (rp_Fs pp))). intros. module.
  Qed.
  Lemma mask_ν ν ν' s t : c_mask k pp ν s t = c_mask k pp ν' s t -> ν = ν'.
  Proof.
    unfold c_mask. generalize (msm s (rp_Hs pp)) (msm t (take (2 ^ k * rp_m) (rp_Fs pp))). intros A B H. apply (gmul_cancel (rp_F pp)); [done|].
    apply (gadd_cancel_l (gadd A B)). transitivity (gadd (gadd (gmul ν (rp_F pp)) A) B); [module|]. rewrite H. module.
  Qed.
  Lemma C_comb c c2 τ τ2 z : gadd (gmul z (c_C pp c τ)) (gmul (z * z) (c_C pp c2 τ2)) = c_C pp (c * z + c2 * (z * z)) (τ * z + τ2 * (z * z)).
  Proof. unfold c_C. module. Qed.
  Lemma C_τ c τ τ' : c_C pp c τ = c_C pp c τ' -> τ = τ'.
  Proof. unfold c_C. intros H. apply gadd_cancel_l in H. apply (gmul_cancel (rp_H pp)); done. Qed.

  Lemma c_product v w s t f x y0 y1 z : length v = n -> Forall in_range v -> length w = n -> length s = (nm + n)%nat -> length t = nm -> length f = n ->
    dot (c_a k (vbits v) w s y1 z) (c_b k (vbits v) t f x y0 y1 z) =
    rc0 nm (dD f) (PowerSeries nm y0) y1 (dot (vadd v (vscale x w)) f) + c_c1 k (vbits v) s t f x y0 y1 * z + c_c2 k s t y0 * (z * z).
  Proof.
    intros Hv Hr Lw Ls Lt Lf. destruct (vbits_spec v Hr) as (l & _ & _ & Lb & Hc & Hd). rewrite Hv in Lb, Hc. fold nm in Lb, Hc.
    assert (Hu : dot (vbits v) (dD f) + dot w (vscale x f) = dot (vadd v (vscale x w)) f).
    { rewrite Hd by lia. rewrite dot_vadd_l, dot_vscale_l, dot_vscale_r by (rewrite vscale_length; lia). done. }
    unfold c_a, c_b, c_c1, c_c2. fold n. fold nm.
    refine (rc_spec nm n (vbits v) w (take nm s) (drop nm s) t (dD f) (vscale x f) (PowerSeries nm y0) y1 z _ _ _ _ _ _ _ _ _ _ _);
      rewrite ?take_length, ?drop_length, ?dD_length, ?vscale_length, ?power_series_length; try done; try lia.
  Qed.

  Lemma rg_shift_run v v2 r r2 rp ip co : rp_wf k pp -> length v = n -> length v2 = n -> Forall in_range v -> Forall in_range v2 ->
    V = gadd (gmul r (rp_F pp)) (msm v (rp_Gs pp)) -> V = gadd (gmul r2 (rp_F pp)) (msm v2 (rp_Gs pp)) ->
    coins_ok n co -> rv_x pp rp V <> 0 -> rv_z pp rp V <> 0 -> ProveRange_unchecked pp V v r co = Ret (rp, ip) ->
    coins_ok n (rg_shift v v2 r r2 rp co) /\ ProveRange_unchecked pp V v2 r2 (rg_shift v v2 r r2 rp co) = Ret (rp, ip) /\
    rg_shift v2 v r2 r rp (rg_shift v v2 r r2 rp co) = co.
  Proof.
    intros Hwf Lv Lv2 Hr Hr2 EV EV2 Hco Hx Hz Hrun. pose proof Hwf as (Hk & HG & _).
    pose proof Hco as (Lw & Ls & Lt). fold n in Ls, Lt. fold nm in Ls, Lt.
    destruct (vbits_spec v Hr) as (l & _ & _ & Lb & _). rewrite Lv in Lb. fold nm in Lb.
    destruct (vbits_spec v2 Hr2) as (l2 & _ & _ & Lb2 & _). rewrite Lv2 in Lb2. fold nm in Lb2.
    destruct (range_run k pp V Hwf v r co Hco Lv Hr) as (Δ & HΔ & Lf & (xs & Hred) & Hall). rewrite Hrun in Hall. symmetry in Hall.
    cbv zeta in Hred, Lf.
    set (b := vbits v) in *. set (b2 := vbits v2) in *.
    set (W := c_W pp (co_w co) (co_rPrime co)) in *. set (Q := c_mask k pp (co_ν co) (b ++ co_w co) (c_wC k b)) in *.
    set (x := rg_x pp V W Q) in *. set (γ := - (r + x * co_rPrime co)) in *. set (U := rg_U pp V W γ x) in *.
    set (f := vco (ir_chal (bp_Digest (rg_rdx pp)) U Δ)) in *. cbv zeta in Hall.
    set (R := c_mask k pp (co_η co) (co_s co) (co_t co)) in *. set (y0 := rg_y pp 0 x Q R) in *. set (y1 := rg_y pp 1 x Q R) in *.
    set (c1 := c_c1 k b (co_s co) (co_t co) f x y0 y1) in *. set (c2 := c_c2 k (co_s co) (co_t co) y0) in *.
    set (C1 := c_C pp c1 (co_τ1 co)) in *. set (C2 := c_C pp c2 (co_τ2 co)) in *.
    set (z := rg_z pp C1 C2 Q R y0 y1) in *.
    set (a := c_a k b (co_w co) (co_s co) y1 z) in *. set (bb := c_b k b (co_t co) f x y0 y1 z) in *.
    apply rbind_inv in Hall. destruct Hall as (ipa & Hipa & Hall). apply rbind_inv in Hall. destruct Hall as (ipp & Hipp & Hall).
    assert (Erp : rp = MkRP Δ (dot (vadd v (vscale x (co_w co))) f) W γ ipp (dot a bb) Q R C1 C2
        (co_τ1 co * z + co_τ2 co * (z * z)) (- (co_ν co + co_η co * z))) by congruence.
    assert (Eip : ip = rg_ipa pp y0) by congruence. clear Hall Hrun.
    assert (Ex : rv_x pp rp V = x) by (rewrite Erp; done). assert (Ey0 : rv_y0 pp rp V = y0) by (rewrite Erp; done).
    assert (Ey1 : rv_y1 pp rp V = y1) by (rewrite Erp; done). assert (Ez : rv_z pp rp V = z) by (rewrite Erp; done).
    assert (EU : rv_U pp rp V = U) by (rewrite Erp; done). assert (EΔ : rp_Δ rp = Δ) by (rewrite Erp; done).
    assert (EQ : rp_Q rp = Q) by (rewrite Erp; done). assert (ER : rp_R rp = R) by (rewrite Erp; done).
    assert (EC1 : rp_C1 rp = C1) by (rewrite Erp; done). assert (EC2 : rp_C2 rp = C2) by (rewrite Erp; done).
    rewrite Ex in Hx. rewrite Ez in Hz.
    assert (LwC : length (c_wC k b) = nm) by (unfold c_wC; rewrite vsub_length; rewrite ones_length; lia).
    assert (LwC2 : length (c_wC k b2) = nm) by (unfold c_wC; rewrite vsub_length; rewrite ones_length; lia).
    set (w2 := remask (zinv x) v v2 (co_w co)). assert (Lw2 : length w2 = n) by (apply remask_length; done).
    set (s2 := remask (zinv z) (b ++ co_w co) (b2 ++ w2) (co_s co)).
    assert (Ls2 : length s2 = (nm + n)%nat) by (apply remask_length; rewrite ?app_length; lia).
    set (t2 := remask (zinv z) (c_wC k b) (c_wC k b2) (co_t co)). assert (Lt2 : length t2 = nm) by (apply remask_length; done).
    set (ν2 := dlog (rp_F pp) HF (gadd Q (gopp (c_mask k pp 0 (b2 ++ w2) (c_wC k b2))))).
    set (η2 := dlog (rp_F pp) HF (gadd R (gopp (c_mask k pp 0 s2 t2)))).
    set (τ12 := dlog (rp_H pp) HH (gadd C1 (gopp (c_C pp (c_c1 k b2 s2 t2 f x y0 y1) 0)))).
    set (τ22 := dlog (rp_H pp) HH (gadd C2 (gopp (c_C pp (c_c2 k s2 t2 y0) 0)))).
    set (r'2 := co_rPrime co + zinv x * (r - r2)).
    assert (Eco : rg_shift v v2 r r2 rp co = MkCoins w2 r'2 ν2 η2 s2 t2 τ12 τ22).
    { unfold rg_shift. rewrite Ex, Ey0, Ey1, Ez, EU, EΔ, EQ, ER, EC1, EC2. reflexivity. }
    assert (Hco2 : coins_ok n (MkCoins w2 r'2 ν2 η2 s2 t2 τ12 τ22)) by (split; [|split]; done).
    rewrite Eco. split; [done|].
    assert (EQ2 : c_mask k pp ν2 (b2 ++ w2) (c_wC k b2) = Q) by (apply mask_fill; done).
    assert (ER2 : c_mask k pp η2 s2 t2 = R) by (apply mask_fill; done).
    assert (EC12 : c_C pp (c_c1 k b2 s2 t2 f x y0 y1) τ12 = C1) by (apply C_fill; done).
    assert (EC22 : c_C pp (c_c2 k s2 t2 y0) τ22 = C2) by (apply C_fill; done).
    assert (Hi : x * zinv x = 1) by (by apply zinv_r).
    assert (Ed : gadd (gmul (r - r2) (rp_F pp)) (gadd (msm v (rp_Gs pp)) (gopp (msm v2 (rp_Gs pp)))) = gzero).
    { transitivity (gadd V (gopp V)); [|module]. rewrite EV at 1. rewrite EV2 at 1. module. }
    assert (EW2 : c_W pp w2 r'2 = W).
    { unfold c_W, w2, W. rewrite (remask_msm _ _ _ _ _ n) by done. unfold c_W, r'2.
      transitivity (gadd (gadd (gmul (co_rPrime co) (rp_F pp)) (msm (co_w co) (rp_Gs pp)))
        (gmul (zinv x) (gadd (gmul (r - r2) (rp_F pp)) (gadd (msm v (rp_Gs pp)) (gopp (msm v2 (rp_Gs pp))))))).
      - generalize (zinv x). intros i. module.
      - rewrite Ed. module. }
    assert (EwR : vadd v2 (vscale x w2) = vadd v (vscale x (co_w co))) by (apply (remask_sum x v v2 (co_w co) n); done).
    assert (Eγ : - (r2 + x * r'2) = γ).
    { unfold γ, r'2. transitivity (- (r2 + x * co_rPrime co + (x * zinv x) * (r - r2))); [ring|]. rewrite Hi. ring. }
    assert (Ea : c_a k b2 w2 s2 y1 z = a) by (apply ra_remask; done).
    assert (Eb : c_b k b2 t2 f x y0 y1 z = bb) by (unfold c_b; apply rb_remask; [done|done|done|done|apply power_series_length]).
    assert (Eρ : ν2 + η2 * z = co_ν co + co_η co * z).
    { apply (mask_ν _ _ (vadd (b ++ co_w co) (vscale z (co_s co))) (vadd (c_wC k b) (vscale z (co_t co)))).
      transitivity (gadd Q (gmul z R)); [|symmetry; unfold Q, R; rewrite <- mask_comb by (rewrite ?app_length; lia); reflexivity].
      rewrite <- EQ2, <- ER2. rewrite mask_comb by (rewrite ?app_length; lia). f_equal.
      - symmetry. unfold s2. apply (remask_sum z _ _ _ (nm + n)); rewrite ?app_length; try lia. done.
      - symmetry. unfold t2. apply (remask_sum z _ _ _ nm); done. }
    assert (Eτ : τ12 * z + τ22 * (z * z) = co_τ1 co * z + co_τ2 co * (z * z)).
    { assert (Ec : c_c1 k b2 s2 t2 f x y0 y1 * z + c_c2 k s2 t2 y0 * (z * z) = c1 * z + c2 * (z * z)).
      { pose proof (c_product v (co_w co) (co_s co) (co_t co) f x y0 y1 z Lv Hr Lw Ls Lt Lf) as P1.
        pose proof (c_product v2 w2 s2 t2 f x y0 y1 z Lv2 Hr2 Lw2 Ls2 Lt2 Lf) as P2. fold b2 in P2. fold b in P1.
        rewrite Ea, Eb, EwR in P2. fold a bb c1 c2 in P1. rewrite P1 in P2. clear -P2.
        generalize dependent (rc0 nm (dD f) (PowerSeries nm y0) y1 (dot (vadd v (vscale x (co_w co))) f)). intros c0 P2.
        generalize dependent (c_c1 k b2 s2 t2 f x y0 y1). generalize dependent (c_c2 k s2 t2 y0). intros d2 d1 P2.
        transitivity (c0 + d1 * z + d2 * (z * z) - c0); [ring|]. rewrite <- P2. ring. }
      apply (C_τ (c1 * z + c2 * (z * z))). 
      transitivity (gadd (gmul z C1) (gmul (z * z) C2)); [|unfold C1, C2; apply C_comb]. rewrite <- EC12, <- EC22, C_comb, Ec. reflexivity. }
    split.
    - destruct (range_run k pp V Hwf v2 r2 _ Hco2 Lv2 Hr2) as (Δ2 & HΔ2 & Lf2 & (xs2 & Hred2) & Hall).
      cbn [co_w co_rPrime co_ν co_η co_s co_t co_τ1 co_τ2] in Hred2, Hall. fold b2 in Hred2, Hall. rewrite EQ2, EW2 in Hred2, Hall. fold x in Hred2, Hall.
      rewrite Eγ, EwR in Hred2, Hall. fold U in Hred2, Hall.
      assert (EΔ2 : Δ2 = Δ) by congruence. rewrite EΔ2 in Hall. fold f in Hall. rewrite ER2 in Hall. cbv zeta in Hall.
      fold y0 y1 in Hall. rewrite EC12, EC22 in Hall. fold z in Hall. rewrite Ea, Eb, Eρ, Eτ in Hall. rewrite Hall, Hipa. cbn [rbind]. rewrite Hipp. cbn [rbind].
      rewrite Erp, Eip. reflexivity.
    - unfold rg_shift. rewrite Ex, Ey0, Ey1, Ez, EU, EΔ, EQ, ER, EC1, EC2. cbn [co_w co_rPrime co_ν co_η co_s co_t co_τ1 co_τ2]. fold f b b2.
      assert (Bw : remask (zinv x) v2 v w2 = co_w co) by (apply (remask_back _ _ _ _ n); done). rewrite Bw.
      assert (Bs : remask (zinv z) (b2 ++ w2) (b ++ co_w co) s2 = co_s co) by (apply (remask_back _ _ _ _ (nm + n)); rewrite ?app_length; lia). rewrite Bs.
      assert (Bt : remask (zinv z) (c_wC k b2) (c_wC k b) t2 = co_t co) by (apply (remask_back _ _ _ _ nm); done). rewrite Bt.
      rewrite (mask_back Q (co_ν co)) by done. rewrite (mask_back R (co_η co)) by done. fold c1 c2.
      rewrite (C_back C1 c1 (co_τ1 co)) by done. rewrite (C_back C2 c2 (co_τ2 co)) by done.
      assert (Br : r'2 + zinv x * (r2 - r) = co_rPrime co) by (unfold r'2; ring). rewrite Br. destruct co. reflexivity.
  Qed.
End Shift.

(** ** C77 *)
(** Two challenges must be invertible; both are hashes of the proof. *)
Definition range_good {C : Curve} (pp : RPPP C) (V : G1 C) (rp : RangeProof C) : Prop := rv_x pp rp V <> 0 /\ rv_z pp rp V <> 0.
(** Let (v, r) and (v2, r2) be two openings of the same commitment, all values in range.  Every good proof is made
    from one by as many random values as from the other. *)
Theorem C77_range_proof : forall (C : Curve) (pp : RPPP C) k V v r v2 r2,
  params_for k pp -> rp_F pp <> gzero -> rp_H pp <> gzero ->
  length v = (2 ^ k)%nat -> Forall in_range v -> V = gadd (gmul r (rp_F pp)) (msm v (rp_Gs pp)) ->
  length v2 = (2 ^ k)%nat -> Forall in_range v2 -> V = gadd (gmul r2 (rp_F pp)) (msm v2 (rp_Gs pp)) ->
  same_messages (coins_ok (2 ^ k)) (range_good pp V) (ProveRange pp V v r) (ProveRange pp V v2 r2).
Proof.
  intros C pp k V v r v2 r2 Hpp HF HH Lv Hr EV Lv2 Hr2 EV2. apply params_for_wf in Hpp.
  assert (K : forall v r v2 r2, length v = (2 ^ k)%nat -> Forall in_range v -> V = gadd (gmul r (rp_F pp)) (msm v (rp_Gs pp)) ->
    length v2 = (2 ^ k)%nat -> Forall in_range v2 -> V = gadd (gmul r2 (rp_F pp)) (msm v2 (rp_Gs pp)) ->
    forall co rp, coins_ok (2 ^ k) co -> range_good pp V rp -> ProveRange pp V v r co = Ret rp ->
    let co2 := rg_shift k pp V HF HH v v2 r r2 rp co in
    coins_ok (2 ^ k) co2 /\ ProveRange pp V v2 r2 co2 = Ret rp /\ rg_shift k pp V HF HH v2 v r2 r rp co2 = co).
  { clear v r v2 r2 Lv Hr EV Lv2 Hr2 EV2. intros v r v2 r2 Lv Hr EV Lv2 Hr2 EV2 co rp Hco [Hx Hz] E. cbv zeta. unfold ProveRange in E.
    apply rbind_inv in E. destruct E as ([rp' ip] & E1 & E). cbn in E. apply rbind_inv in E. destruct E as (e & E2 & E).
    destruct e as [|msg]; [|done]. assert (rp' = rp) by congruence. subst rp'.
    destruct (rg_shift_run k pp V HF HH v v2 r r2 rp ip co Hpp Lv Lv2 Hr Hr2 EV EV2 Hco Hx Hz E1) as (H1 & H2 & H3).
    split; [done|]. split; [|done]. unfold ProveRange. rewrite H2. cbn [rbind]. rewrite E2. reflexivity. }
  apply (same_messages_intro _ _ _ _ (rg_shift k pp V HF HH v v2 r r2) (rg_shift k pp V HF HH v2 v r2 r)); intros co rp; apply K; done.
Qed.
Print Assumptions C77_range_proof.
Lemma range_FH_made (C : Curve) n (pp : RPPP C) : NewRangeProofPublicParams n = Ret pp -> rp_F pp = rand_gen "range proof F" 0 /\ rp_H pp = rand_gen "range proof H" 0.
Proof. intros H. unfold NewRangeProofPublicParams in H. cbn [RandGenVec seq fmap list_fmap idx rbind lookup list_lookup] in H. injection H as <-. split; reflexivity. Qed.
Lemma range_good_all (C : Curve) (pp : RPPP C) V rp : (forall m, fe (sha256 C m) <> 0) -> range_good pp V rp.
Proof. intros H. split; apply H. Qed.
Lemma toy_range_good (pp : RPPP toy) V rp : range_good pp V rp.
Proof. exact (range_good_all toy pp V rp toy_challenge_neq_0). Qed.
Lemma other_opening (C : Curve) (F V M : G1 C) : F <> gzero -> exists r, V = gadd (gmul r F) M.
Proof. intros HF. destruct (multiple_of F (gadd V (gopp M)) HF) as [r Hr]. exists r. rewrite <- Hr. module. Qed.
(** The values (5, 2^63-1) and (6, 7) in the same commitment: one proof, made from either *)
Example C77_nonvacuous : exists (pp : RPPP toy) V r2 rp co2, NewRangeProofPublicParams 2 = Ret pp /\ rp_F pp <> gzero /\ rp_H pp <> gzero /\
  V = gadd (gmul (zr 11) (rp_F pp)) (msm [zr 5; zr (2 ^ 63 - 1)] (rp_Gs pp)) /\ V = gadd (gmul r2 (rp_F pp)) (msm [zr 6; zr 7] (rp_Gs pp)) /\
  ProveRange pp V [zr 5; zr (2 ^ 63 - 1)] (zr 11) (toy_coins 2) = Ret rp /\ range_good pp V rp /\ ProveRange pp V [zr 6; zr 7] r2 co2 = Ret rp.
Proof.
  destruct (C21_generated_params toy 1) as (pp & Hpp & Hwf & _); [lia|]. destruct (range_FH_made toy 2 pp Hpp) as [EF EH].
  assert (HF : rp_F pp <> gzero) by (rewrite EF; apply toy_hash_to_g1_neq_0). assert (HH : rp_H pp <> gzero) by (rewrite EH; apply toy_hash_to_g1_neq_0). clear EF EH.
  assert (Hr : Forall in_range [zr 5; zr (2 ^ 63 - 1)]) by (repeat constructor; apply small_in_range; lia).
  assert (Hr2 : Forall in_range [zr 6; zr 7]) by (repeat constructor; apply small_in_range; lia).
  destruct (C21_range_complete toy pp 1 [zr 5; zr (2 ^ 63 - 1)] (zr 11) (toy_coins 2) Hwf (toy_coins_ok 2) eq_refl Hr) as (rp & _ & H). cbv zeta in H.
  destruct (H (toy_range_challenges _ _ _)) as [Hp _]. clear H.
  remember (gadd (gmul (zr 11) (rp_F pp)) (msm [zr 5; zr (2 ^ 63 - 1)] (rp_Gs pp))) as V eqn:EV.
  destruct (other_opening toy (rp_F pp) V (msm [zr 6; zr 7] (rp_Gs pp)) HF) as [r2 EV2].
  destruct (C77_range_proof toy pp 1 V [zr 5; zr (2 ^ 63 - 1)] (zr 11) [zr 6; zr 7] r2 Hwf HF HH eq_refl Hr EV eq_refl Hr2 EV2) as (φ & ψ & H).
  destruct (H (toy_coins 2) rp (toy_coins_ok 2) (toy_range_good pp V rp)) as [H1 _]. destruct (H1 Hp) as (_ & H2 & _).
  exists pp, V, r2, rp, (φ (toy_coins 2)). split; [exact Hpp|]. split; [exact HF|]. split; [exact HH|]. split; [exact EV|]. split; [exact EV2|]. split; [exact Hp|].
  split; [apply toy_range_good|exact H2].
Qed.
