(** Property C76: equality arguments reveal nothing but the equality.
    Specification of "reveal nothing": [same_messages] in Hiding.v. *)
From Verif Require Import Hiding Poe_facts Prop_poe Extract Toy.
Local Open Scope Zr_scope.

Lemma g1_inj {C : Curve} x y : g1 (C:=C) x = g1 y -> x = y.
Proof. apply gmul_cancel. apply gen1_neq_0. Qed.
Lemma commitment_inj {C : Curve} N α v w : commitment (C:=C) N α v = commitment N α w -> dot v (pows α 1 N) = dot w (pows α 1 N).
Proof. apply g1_inj. Qed.

(** New masks (u, η, ν) for the entry b instead of a at the same positions i, j *)
Definition readjust (N : nat) (α x : Zr) (i j : nat) (a b : Zr) (c : Zr * Zr * Zr) : Zr * Zr * Zr :=
  let d := zinv x * (a - b) in
  (fst (fst c) + d, snd (fst c) - d * zinv (α ^ N) * α ^ (j + 1), snd c - d * zinv (α ^ N) * α ^ (i + 1)).
Lemma readjust_back N α x i j a b c : readjust N α x i j b a (readjust N α x i j a b c) = c.
Proof. destruct c as [[u η] ν]. unfold readjust. cbn [fst snd]. f_equal; [f_equal|]; ring. Qed.
Lemma readjust_c N α x i j a b c : x <> 0 -> x * fst (fst (readjust N α x i j a b c)) + b = x * fst (fst c) + a.
Proof.
  intros Hx. destruct c as [[u η] ν]. unfold readjust. cbn [fst snd]. transitivity (x * u + (x * zinv x) * (a - b) + b); [ring|]. rewrite zinv_r by done. ring.
Qed.
Lemma readjust_V N α x i j a b c : α <> 0 -> let c' := readjust N α x i j a b c in
  fst (fst c') * α ^ (i + 1) + snd c' * α ^ N = fst (fst c) * α ^ (i + 1) + snd c * α ^ N.
Proof.
  intros Hα c'. destruct c as [[u η] ν]. unfold c', readjust. cbn [fst snd]. assert (Hp : zinv (α ^ N) * α ^ N = 1) by (apply zinv_l, zpow_neq_0; done).
  generalize dependent (zinv (α ^ N)). generalize (α ^ N) (α ^ (i + 1)) (zinv x). intros p q y z Hz.
  transitivity (u * q + ν * p + y * (a - b) * q - (y * (a - b)) * q * (z * p)); [ring|]. rewrite Hz. ring.
Qed.
Lemma readjust_W N α x i j a b c : α <> 0 -> let c' := readjust N α x i j a b c in
  fst (fst c') * α ^ (j + 1) + snd (fst c') * α ^ N = fst (fst c) * α ^ (j + 1) + snd (fst c) * α ^ N.
Proof.
  intros Hα c'. destruct c as [[u η] ν]. unfold c', readjust. cbn [fst snd]. assert (Hp : zinv (α ^ N) * α ^ N = 1) by (apply zinv_l, zpow_neq_0; done).
  generalize dependent (zinv (α ^ N)). generalize (α ^ N) (α ^ (j + 1)) (zinv x). intros p q y z Hz.
  transitivity (u * q + η * p + y * (a - b) * q - (y * (a - b)) * q * (z * p)); [ring|]. rewrite Hz. ring.
Qed.

(** ** One pair *)
(** The first challenge is not 0. *)
Definition eq_good {C : Curve} (e : Equality C) (Υ : eqProof C) : Prop :=
  forall x, eq_RO e [eq_V e; eq_W e; ep_V Υ; ep_W Υ] [] (pe_Digest (eq_PP e)) 1%nat = Ret [x] -> x <> 0.

Section One.
  Context {C : Curve} (N : nat) (α : Zr) (e : Equality C).
  Context (HRO : oracle_ok (eq_RO e)) (Hpp : pe_PP (eq_PP e) = NewPublicParams N α) (HI : (eq_I e + 1 < N)%nat) (HJ : (eq_J e + 1 < N)%nat).

  (** An accepted proof is determined by its first three components. *)
  Lemma accepted_unique Υ Υ' : ep_C Υ = ep_C Υ' -> ep_V Υ = ep_V Υ' -> ep_W Υ = ep_W Υ' ->
    Equality_Verify e Υ = Ret nil_error -> Equality_Verify e Υ' = Ret nil_error -> Υ = Υ'.
  Proof.
    intros Hc HV HW H H'.
    destruct (equality_verify_spec N α e HRO Hpp ltac:(lia) ltac:(lia) Υ) as (x & t0 & t1 & l & Hx & Ht & err & Hr & Hiff).
    destruct (equality_verify_spec N α e HRO Hpp ltac:(lia) ltac:(lia) Υ') as (x' & t0' & t1' & l' & Hx' & Ht' & err' & Hr' & Hiff').
    rewrite <- Hc, <- HV, <- HW in *. assert (x' = x) as -> by congruence. rewrite Ht in Ht'. assert (t0' = t0 /\ t1' = t1) as [-> ->] by (split; congruence).
    rewrite H in Hr. rewrite H' in Hr'. assert (err = nil_error) by congruence. assert (err' = nil_error) by congruence.
    apply Hiff in H0. apply Hiff' in H1. rewrite H0 in H1.
    assert (ep_Ω Υ = ep_Ω Υ') as E.
    { revert H1. generalize (g1 (C:=C) (ep_C Υ * (t0 + t1) * α ^ (N + 1))). clear. intros A H1.
      apply (gadd_cancel_l A). rewrite !(gadd_comm _ A). exact H1. }
    destruct Υ, Υ'. cbn in *. congruence.
  Qed.
  Lemma equality_prove_parts v w u η ν Υ : length v = N -> length w = N -> Equality_Prove e v w u η ν = Ret Υ ->
    exists x, ep_V Υ = g1 (u * α ^ (eq_I e + 1) + ν * α ^ N) /\ ep_W Υ = g1 (u * α ^ (eq_J e + 1) + η * α ^ N) /\
      eq_RO e [eq_V e; eq_W e; ep_V Υ; ep_W Υ] [] (pe_Digest (eq_PP e)) 1%nat = Ret [x] /\ ep_C Υ = nth (eq_I e) v 0 + u * x.
  Proof.
    intros Hv Hw E. unfold Equality_Prove in E.
    destruct (lookup_lt_is_Some_2 v (eq_I e) ltac:(lia)) as [vI HvI]. destruct (lookup_lt_is_Some_2 w (eq_J e) ltac:(lia)) as [wJ HwJ].
    assert (EvI : nth (eq_I e) v 0 = vI) by (rewrite nth_lookup, HvI; done).
    rewrite (idx_ret _ _ _ HvI), (idx_ret _ _ _ HwJ) in E. cbn [rbind] in E. destruct (zeqb vI wJ); [|done].
    rewrite Hv, Hw, Nat.eqb_refl, Hpp in E. rewrite !g1_idx in E by lia. cbn [rbind] in E.
    assert (En : idxZ (pp_G1s (NewPublicParams (C:=C) N α)) (Z.of_nat N - 1) = Ret (g1 (α ^ N))).
    { unfold idxZ. destruct (Z.ltb_spec (Z.of_nat N - 1) 0); [lia|]. replace (Z.to_nat (Z.of_nat N - 1)) with (N - 1)%nat by lia.
      rewrite g1_idx by lia. do 3 f_equal. lia. }
    rewrite En in E. cbn [rbind] in E. rewrite !g1_last in E by lia. cbn [rbind] in E.
    set (V' := gadd (gmul u _) (gmul ν _)) in *. set (W' := gadd (gmul u _) (gmul η _)) in *.
    destruct (HRO [eq_V e; eq_W e; V'; W'] [] (pe_Digest (eq_PP e)) 1%nat) as (xl & Hx & Lx).
    destruct xl as [|x [|]]; try (cbn in Lx; lia). rewrite Hx in E. cbn [rbind idx lookup list_lookup] in E.
    apply rbind_inv in E as (ts & _ & E). apply rbind_inv in E as (t0 & _ & E). apply rbind_inv in E as (t1 & _ & E).
    apply rbind_inv in E as ([? ?] & _ & E). apply rbind_inv in E as ([? ?] & _ & E). exists x. rewrite EvI.
    assert (EV : V' = g1 (u * α ^ (eq_I e + 1) + ν * α ^ N)) by (unfold V', g1; generalize (α ^ (eq_I e + 1)) (α ^ N); intros; module).
    assert (EW : W' = g1 (u * α ^ (eq_J e + 1) + η * α ^ N)) by (unfold W', g1; generalize (α ^ (eq_J e + 1)) (α ^ N); intros; module).
    injection E as <-. cbn [ep_C ep_V ep_W]. split; [exact EV|]. split; [exact EW|]. split; [exact Hx|done].
  Qed.

  Definition eq_shift (v v' : list Zr) (Υ : eqProof C) (κ : Zr * Zr * Zr) : Zr * Zr * Zr :=
    match eq_RO e [eq_V e; eq_W e; ep_V Υ; ep_W Υ] [] (pe_Digest (eq_PP e)) 1%nat with
    | Ret [x] => readjust N α x (eq_I e) (eq_J e) (nth (eq_I e) v 0) (nth (eq_I e) v' 0) κ
    | _ => κ
    end.
  Definition eq_run (v w : list Zr) (κ : Zr * Zr * Zr) : res (eqProof C) := Equality_Prove e v w (fst (fst κ)) (snd (fst κ)) (snd κ).
  Lemma eq_shift_run v w v' w' Υ κ : α <> 0 ->
    eq_V e = commitment N α v -> eq_W e = commitment N α w -> eq_V e = commitment N α v' -> eq_W e = commitment N α w' ->
    length v = N -> length w = N -> length v' = N -> length w' = N ->
    nth (eq_I e) v 0 = nth (eq_J e) w 0 -> nth (eq_I e) v' 0 = nth (eq_J e) w' 0 ->
    eq_good e Υ -> eq_run v w κ = Ret Υ -> eq_run v' w' (eq_shift v v' Υ κ) = Ret Υ /\ eq_shift v' v Υ (eq_shift v v' Υ κ) = κ.
  Proof.
    intros Hα EV EW EV' EW' Lv Lw Lv' Lw' Hq Hq' Hg E.
    destruct (equality_prove_parts v w _ _ _ Υ Lv Lw E) as (x & PV & PW & Px & Pc).
    assert (Hx : x <> 0) by (apply Hg; exact Px). unfold eq_shift. rewrite Px. set (κ' := readjust _ _ _ _ _ _ _ _).
    split; [|apply readjust_back].
    destruct (equality_prove_spec N α e HRO Hpp ltac:(lia) ltac:(lia) v w (fst (fst κ)) (snd (fst κ)) (snd κ) HI HJ Lv Lw Hq) as (Υ0 & E0 & A0).
    unfold eq_run in *. rewrite E in E0. assert (Υ0 = Υ) as -> by congruence. clear E0. specialize (A0 EV EW).
    destruct (equality_prove_spec N α e HRO Hpp ltac:(lia) ltac:(lia) v' w' (fst (fst κ')) (snd (fst κ')) (snd κ') HI HJ Lv' Lw' Hq') as (Υ' & E' & A').
    specialize (A' EV' EW'). rewrite E'. f_equal.
    destruct (equality_prove_parts v' w' _ _ _ Υ' Lv' Lw' E') as (x' & PV' & PW' & Px' & Pc').
    assert (QV : ep_V Υ' = ep_V Υ) by (rewrite PV, PV'; f_equal; apply readjust_V; done).
    assert (QW : ep_W Υ' = ep_W Υ) by (rewrite PW, PW'; f_equal; apply readjust_W; done).
    rewrite QV, QW, Px in Px'. assert (x' = x) as -> by congruence.
    apply accepted_unique; try done. rewrite Pc, Pc'.
    pose proof (readjust_c N α x (eq_I e) (eq_J e) (nth (eq_I e) v 0) (nth (eq_I e) v' 0) κ Hx) as H. fold κ' in H.
    transitivity (x * fst (fst κ') + nth (eq_I e) v' 0); [ring|]. rewrite H. ring.
  Qed.
End One.

Theorem C76_equality (C : Curve) N m α (pp : poePP C) (RO : poeRO C) v w v' w' V W i j :
  α <> 0 -> poe_params N m α pp -> oracle_ok RO -> (i < N - 1)%nat -> (j < N - 1)%nat ->
  Commit (pe_PP pp) v = Ret V -> Commit (pe_PP pp) w = Ret W -> v !! i = w !! j ->
  Commit (pe_PP pp) v' = Ret V -> Commit (pe_PP pp) w' = Ret W -> v' !! i = w' !! j ->
  let e := MkEq RO pp V W i j in
  same_messages (fun _ => True) (eq_good e)
    (fun κ => Equality_Prove e v w (fst (fst κ)) (snd (fst κ)) (snd κ))
    (fun κ => Equality_Prove e v' w' (fst (fst κ)) (snd (fst κ)) (snd κ)).
Proof.
  intros Hα (Hpp & _) HRO Hi Hj HV HW Hq HV' HW' Hq' e. rewrite Hpp in *.
  apply commit_inv in HV as [Lv EV], HW as [Lw EW], HV' as [Lv' EV'], HW' as [Lw' EW']; [|lia..].
  apply (same_messages_intro _ _ _ _ (eq_shift N α e v v') (eq_shift N α e v' v)); intros κ Υ _ Hg E; (split; [done|]).
  - apply (eq_shift_run N α e HRO Hpp) with (w := w); cbn [e eq_V eq_W eq_I eq_J]; try done; try lia; rewrite !nth_lookup, ?Hq, ?Hq'; done.
  - apply (eq_shift_run N α e HRO Hpp) with (w := w'); cbn [e eq_V eq_W eq_I eq_J]; try done; try lia; rewrite !nth_lookup, ?Hq, ?Hq'; done.
Qed.

(** ** Many pairs *)
Section Many.
  Context {C : Curve} (N : nat) (α : Zr) (e : Equalities C) (k : nat).
  Context (HRO : oracle_ok (es_RO e)) (Hpp : pe_PP (es_PP e) = NewPublicParams N α).
  Context (HG : length (pe_G (es_PP e)) = (2 ^ k)%nat) (HH : length (pe_H (es_PP e)) = (2 ^ k)%nat).

  (** The second half of the prover's run uses only what it sends, the folded entries a and the exponents of the openings. *)
  Definition eqs_finish (Va Wa : list (G1 C)) (x : Zr) (U V : G1 C) (a : list Zr) (ρ : Zr) (oV oW : list Zr) : res (AggProof C) :=
    let! ts := es_RO e ((Va ++ Wa ++ es_V e ++ es_W e) ++ [U; V]) [] (pe_Digest (es_PP e)) (2 * 2 ^ k)%nat in
    let te := evens_loop ts in let to := odds_loop ts in let b := vadd te to in
    let Ω := gadd (msm te (g1 <$> oV)) (msm to (g1 <$> oW)) in
    let P := gadd (gadd (gadd (gmul ρ (pe_F (es_PP e))) (gmul x U)) V) (msm b (pe_H (es_PP e))) in
    let! bp := poe_bpPP (es_PP e) in
    let! ipa := NewInnerProdArgument bp a b in
    let! ipp := IPA_Prove (MkIPA (ipa_pp ipa) (ipa_a ipa) (ipa_b ipa) (ipa_C ipa) P) in
    Ret (MkAP ipp (ipp_C ipp) ρ U V Ω Wa Va).
  Definition item_oV (x : Zr) (t : eqItem) : Zr := open_exp N α (t_i t) (t_v t) + x * (t_ν t * α ^ (2 * N - t_i t)).
  Definition item_oW (x : Zr) (t : eqItem) : Zr := open_exp N α (t_j t) (t_w t) + x * (t_η t * α ^ (2 * N - t_j t)).
  Definition item_V (t : eqItem) : G1 C := g1 (t_u t * α ^ (t_i t + 1) + t_ν t * α ^ N).
  Definition item_W (t : eqItem) : G1 C := g1 (t_u t * α ^ (t_j t + 1) + t_η t * α ^ N).

  Lemma equalities_run its r1 r2 x : length its = (2 ^ k)%nat -> Forall (item_ok N) its ->
    es_V e = (fun t => commitment N α (t_v t)) <$> its -> es_W e = (fun t => commitment N α (t_w t)) <$> its ->
    es_I e = t_i <$> its -> es_J e = t_j <$> its ->
    let Va := item_V <$> its in let Wa := item_W <$> its in
    es_RO e (Va ++ Wa ++ es_V e ++ es_W e) [] (pe_Digest (es_PP e)) 1%nat = Ret [x] ->
    Equalities_Prove e (t_v <$> its) (t_w <$> its) ((fun t => (t_u t, t_η t, t_ν t)) <$> its) r1 r2 =
    eqs_finish Va Wa x (gadd (gmul r1 (pe_F (es_PP e))) (msm (t_u <$> its) (pe_G (es_PP e)))) (gadd (gmul r2 (pe_F (es_PP e))) (msm (t_vI <$> its) (pe_G (es_PP e))))
      ((fun t => x * t_u t + t_vI t) <$> its) (poe_negZr (r1 * x + r2)) (item_oV x <$> its) (item_oW x <$> its).
  Proof.
    intros Hm Hok HV HW HI HJ Va Wa Hx.
    assert (Lits : forall {A} (f : eqItem -> A), length (f <$> its) = (2 ^ k)%nat) by (intros; rewrite fmap_length; done).
    assert (Hk : (1 <= 2 ^ k)%nat) by (pose proof (Nat.pow_nonzero 2 k); lia).
    assert (Hat : forall j t, its !! j = Some t -> item_ok N t) by (intros j t Ht; eapply Forall_lookup_1; [exact Hok|exact Ht]).
    unfold Equalities_Prove. assert (LV : length (es_V e) = (2 ^ k)%nat) by (rewrite HV; apply Lits). assert (LW : length (es_W e) = (2 ^ k)%nat) by (rewrite HW; apply Lits).
    rewrite LV, LW, !Lits, !Nat.eqb_refl.
    assert (H0 : exists t0, its !! 0%nat = Some t0) by (apply lookup_lt_is_Some_2; lia). destruct H0 as [t0 H0].
    assert (Hn : idx (t_v <$> its) 0 = Ret (t_v t0)) by (apply idx_ret; rewrite list_lookup_fmap, H0; done).
    rewrite Hn. cbn [rbind]. destruct (Hat 0%nat t0 H0) as (HN & _ & Hi0 & _). rewrite HN.
    rewrite <- Hm. rewrite (mapM_items _ (t_iter N α)).
    2:{ intros j t Ht. destruct (Hat j t Ht) as (Hv & Hw & Hi & Hj). unfold poe_iter. rewrite HI, HJ, Hpp.
        assert (Ec : idx ((fun t => (t_u t, t_η t, t_ν t)) <$> its) j = Ret (t_u t, t_η t, t_ν t)) by (apply idx_ret; rewrite list_lookup_fmap, Ht; done).
        assert (Ei : idx (t_i <$> its) j = Ret (t_i t)) by (apply idx_ret; rewrite list_lookup_fmap, Ht; done).
        assert (Ej : idx (t_j <$> its) j = Ret (t_j t)) by (apply idx_ret; rewrite list_lookup_fmap, Ht; done).
        assert (Ev : idx (t_v <$> its) j = Ret (t_v t)) by (apply idx_ret; rewrite list_lookup_fmap, Ht; done).
        assert (Ew : idx (t_w <$> its) j = Ret (t_w t)) by (apply idx_ret; rewrite list_lookup_fmap, Ht; done).
        rewrite Ec, Ei, Ej. cbn [rbind]. rewrite !g1_idx by lia. cbn [rbind].
        assert (En : idxZ (pp_G1s (NewPublicParams (C:=C) N α)) (Z.of_nat N - 1) = Ret (g1 (α ^ N))).
        { unfold idxZ. destruct (Z.ltb_spec (Z.of_nat N - 1) 0); [lia|]. replace (Z.to_nat (Z.of_nat N - 1)) with (N - 1)%nat by lia.
          rewrite g1_idx by lia. do 3 f_equal. lia. }
        rewrite En. cbn [rbind]. rewrite !g1_last by lia. cbn [rbind]. rewrite Ev, Ew. cbn [rbind].
        rewrite !open_spec by lia. cbn [rbind]. unfold t_iter, g1. f_equal.
        f_equal; module. }
    cbn [rbind]. rewrite <- !list_fmap_compose. change (it_V ∘ t_iter N α) with item_V. change (it_W ∘ t_iter N α) with item_W. fold Va Wa.
    rewrite Hx. cbn [rbind idx lookup list_lookup].
    rewrite (mapM_items _ t_vI).
    2:{ intros j t Ht. destruct (Hat j t Ht) as (Hv & Hw & Hi & Hj). rewrite HI.
        assert (Ei : idx (t_i <$> its) j = Ret (t_i t)) by (apply idx_ret; rewrite list_lookup_fmap, Ht; done).
        assert (Ev : idx (t_v <$> its) j = Ret (t_v t)) by (apply idx_ret; rewrite list_lookup_fmap, Ht; done).
        rewrite Ev, Ei. cbn [rbind]. apply idx_ret. unfold t_vI. rewrite nth_lookup.
        destruct (lookup_lt_is_Some_2 (t_v t) (t_i t) ltac:(lia)) as [y Hy]. rewrite Hy. done. }
    cbn [rbind]. rewrite take_ge by (rewrite fmap_length; done). rewrite <- list_fmap_compose. unfold compose. cbn [fst snd].
    rewrite !mulv_sum by (first [rewrite HG, Lits; done|apply nonempty_len; lia]). cbn [rbind].
    set (U := gadd (gmul r1 _) (msm (_ <$> its) _)). set (V := gadd (gmul r2 _) (msm (_ <$> its) _)).
    unfold eqs_finish. rewrite <- Hm.
    destruct (HRO ((Va ++ Wa ++ es_V e ++ es_W e) ++ [U; V]) [] (pe_Digest (es_PP e)) (2 * length its)%nat) as (ts & Ht & Lts).
    rewrite Ht. cbn [rbind]. assert (Hev : Nat.even (length ts) = true) by (rewrite Lts; apply Nat.even_spec; exists (length its); lia).
    destruct (evens_odds_length ts (length its) Lts) as [Le Lo].
    unfold Vec_Evens, Vec_Odds. rewrite Hev. cbn [rbind]. set (te := evens_loop ts) in *. set (to := odds_loop ts) in *.
    rewrite !g1v_mul_spec.
    rewrite !g1v_add_spec by (rewrite gvscale_length, !fmap_length; lia). cbn [rbind].
    unfold t_iter. cbn [it_V it_W it_Ωv it_Ωw it_ΩvPP it_ΩwPP].
    rewrite !gvadd_g1. change (fun t : eqItem => open_exp N α (t_i t) (t_v t) + x * (t_ν t * α ^ (2 * N - t_i t))) with (item_oV x).
    change (fun t : eqItem => open_exp N α (t_j t) (t_w t) + x * (t_η t * α ^ (2 * N - t_j t))) with (item_oW x).
    rewrite !mulv_sum by (first [rewrite !fmap_length; lia|apply nonempty_len; rewrite !fmap_length; lia]). cbn [rbind].
    rewrite vec_mul_spec, !vec_add_spec by (rewrite ?vscale_length, !fmap_length; lia). cbn [rbind].
    rewrite vec_add_spec by lia. cbn [rbind].
    assert (Lb : length (vadd te to) = (2 ^ k)%nat) by (rewrite vadd_length; lia).
    rewrite !mulv_sum by (first [lia|apply nonempty_len; lia]). cbn [rbind].
    assert (Ea : vadd (vscale x (t_u <$> its)) (t_vI <$> its) = (fun t => x * t_u t + t_vI t) <$> its).
    { clear. induction its as [|t l IH]; [done|]. unfold vscale, vadd in *. cbn [fmap list_fmap zip_with]. f_equal. exact IH. }
    match goal with |- context [NewInnerProdArgument _ (vadd ?A ?B)] => change (vadd A B) with (vadd (vscale x (t_u <$> its)) (t_vI <$> its)) end.
    rewrite Ea. done.
  Qed.
End Many.

(** Two pairs of vectors about which the same statement holds *)
Record pair_rel {C : Curve} (N : nat) (α : Zr) (p p' : eqPair) : Prop := MkRel {
  rel_i : pr_i p' = pr_i p; rel_j : pr_j p' = pr_j p; rel_in : pair_inbounds N p;
  rel_lv : length (pr_v p) = N /\ length (pr_v p') = N; rel_lw : length (pr_w p) = N /\ length (pr_w p') = N;
  rel_V : commitment (C:=C) N α (pr_v p') = commitment N α (pr_v p); rel_W : commitment (C:=C) N α (pr_w p') = commitment N α (pr_w p);
  rel_eq : entries_equal p /\ entries_equal p' }.
Lemma pair_rel_sym {C : Curve} N α p p' : pair_rel (C:=C) N α p p' -> pair_rel (C:=C) N α p' p.
Proof. intros [Hi Hj Hin [] [] HV HW []]. unfold pair_inbounds in *. split; try done; unfold pair_inbounds; rewrite ?Hi, ?Hj; done. Qed.
Definition pr_entry (p : eqPair) : Zr := nth (pr_i p) (pr_v p) 0.

Section Shift.
  Context {C : Curve} (N : nat) (α : Zr) (Hα : α <> 0).
  Definition recoin (x : Zr) (p p' : eqPair) (c : Zr * Zr * Zr) : Zr * Zr * Zr :=
    readjust N α x (pr_i p) (pr_j p) (pr_entry p) (pr_entry p') c.
  Fixpoint recoins (x : Zr) (prs prs' : list eqPair) (coins : list (Zr * Zr * Zr)) : list (Zr * Zr * Zr) :=
    match prs, prs', coins with
    | p :: prs, p' :: prs', c :: coins => recoin x p p' c :: recoins x prs prs' coins
    | _, _, _ => []
    end.
  Lemma recoins_length x prs prs' coins : length prs' = length prs -> length coins = length prs -> length (recoins x prs prs' coins) = length prs.
  Proof. revert prs' coins. induction prs as [|p prs IH]; intros [|p' prs'] [|c coins] H H'; try done. cbn. f_equal. apply IH; cbn in *; lia. Qed.
  Lemma recoins_back x prs prs' coins : Forall2 (pair_rel (C:=C) N α) prs prs' -> length coins = length prs ->
    recoins x prs' prs (recoins x prs prs' coins) = coins.
  Proof.
    intros H. revert coins. induction H as [|p p' prs prs' Hp _ IH]; intros [|c coins] L; try done. cbn. f_equal; [|apply IH; cbn in L; lia].
    unfold recoin. rewrite (rel_i _ _ _ _ Hp), (rel_j _ _ _ _ Hp). apply readjust_back.
  Qed.
  Lemma recoins_fmap {A} (f : eqItem -> A) x prs prs' coins :
    (forall p p' c, pair_rel (C:=C) N α p p' -> f (to_item p' (recoin x p p' c)) = f (to_item p c)) ->
    Forall2 (pair_rel (C:=C) N α) prs prs' -> length coins = length prs ->
    f <$> zip_with to_item prs' (recoins x prs prs' coins) = f <$> zip_with to_item prs coins.
  Proof.
    intros Hf H. revert coins. induction H as [|p p' prs prs' Hp _ IH]; intros [|c coins] L; try done. cbn. f_equal; [by apply Hf|].
    apply IH. cbn in L; lia.
  Qed.
  Lemma recoin_V x p p' c : pair_rel (C:=C) N α p p' -> item_V (C:=C) N α (to_item p' (recoin x p p' c)) = item_V N α (to_item p c).
  Proof. intros Hp. unfold item_V, to_item. cbn [t_u t_i t_ν]. rewrite (rel_i _ _ _ _ Hp). f_equal. apply readjust_V. done. Qed.
  Lemma recoin_W x p p' c : pair_rel (C:=C) N α p p' -> item_W (C:=C) N α (to_item p' (recoin x p p' c)) = item_W N α (to_item p c).
  Proof. intros Hp. unfold item_W, to_item. cbn [t_u t_j t_η]. rewrite (rel_j _ _ _ _ Hp). f_equal. apply readjust_W. done. Qed.
  Lemma recoin_a x p p' c : x <> 0 -> pair_rel (C:=C) N α p p' ->
    (fun t => x * t_u t + t_vI t) (to_item p' (recoin x p p' c)) = (fun t => x * t_u t + t_vI t) (to_item p c).
  Proof. intros Hx Hp. unfold t_vI, to_item. cbn [t_u t_i t_v]. apply (readjust_c N α x (pr_i p) (pr_j p) (pr_entry p) (pr_entry p') c Hx). Qed.
  Lemma item_oV_eq x t : (t_i t < N)%nat ->
    item_oV N α x t = α ^ (N - t_i t) * (dot (t_v t) (pows α 1 N) + x * (t_u t * α ^ (t_i t + 1) + t_ν t * α ^ N)) - (x * t_u t + t_vI t) * α ^ (N + 1).
  Proof.
    intros H. pose proof (blind_rel N α (t_i t) x (t_u t) (t_ν t) H) as B1. pose proof (entry_rel N α (t_i t) (t_v t) H) as D1. unfold item_oV, t_vI.
    transitivity (α ^ (N - t_i t) * dot (t_v t) (pows α 1 N) + α ^ (N - t_i t) * (x * (t_u t * α ^ (t_i t + 1) + t_ν t * α ^ N)) - (x * t_u t + nth (t_i t) (t_v t) 0) * α ^ (N + 1)); [|ring].
    rewrite B1, D1. ring.
  Qed.
  Lemma item_oW_eq x t : (t_j t < N)%nat ->
    item_oW N α x t = α ^ (N - t_j t) * (dot (t_w t) (pows α 1 N) + x * (t_u t * α ^ (t_j t + 1) + t_η t * α ^ N)) - (x * t_u t + t_wJ t) * α ^ (N + 1).
  Proof.
    intros H. pose proof (blind_rel N α (t_j t) x (t_u t) (t_η t) H) as B1. pose proof (entry_rel N α (t_j t) (t_w t) H) as D1. unfold item_oW, t_wJ.
    transitivity (α ^ (N - t_j t) * dot (t_w t) (pows α 1 N) + α ^ (N - t_j t) * (x * (t_u t * α ^ (t_j t + 1) + t_η t * α ^ N)) - (x * t_u t + nth (t_j t) (t_w t) 0) * α ^ (N + 1)); [|ring].
    rewrite B1, D1. ring.
  Qed.
  Lemma recoin_oV x p p' c : x <> 0 -> pair_rel (C:=C) N α p p' -> item_oV N α x (to_item p' (recoin x p p' c)) = item_oV N α x (to_item p c).
  Proof.
    intros Hx Hp. pose proof (rel_in _ _ _ _ Hp) as [Hi Hj]. pose proof (recoin_a x p p' c Hx Hp) as Ha. cbn beta in Ha.
    pose proof (recoin_V x p p' c Hp) as HV. apply g1_inj in HV. pose proof (rel_i _ _ _ _ Hp) as Ei.
    rewrite !item_oV_eq by (cbn [to_item t_i]; lia). rewrite Ha, HV. cbn [to_item t_i t_v]. rewrite Ei.
    rewrite (commitment_inj _ _ _ _ (rel_V _ _ _ _ Hp)). done.
  Qed.
  Lemma recoin_oW x p p' c : x <> 0 -> pair_rel (C:=C) N α p p' -> item_oW N α x (to_item p' (recoin x p p' c)) = item_oW N α x (to_item p c).
  Proof.
    intros Hx Hp. pose proof (rel_in _ _ _ _ Hp) as [Hi Hj]. pose proof (recoin_a x p p' c Hx Hp) as Ha. cbn beta in Ha.
    pose proof (recoin_W x p p' c Hp) as HW. apply g1_inj in HW. pose proof (rel_j _ _ _ _ Hp) as Ej.
    assert (Eq : forall q d, entries_equal q -> t_wJ (to_item q d) = t_vI (to_item q d)).
    { intros q d H. unfold t_wJ, t_vI. cbn. rewrite !nth_lookup, H. done. }
    rewrite !item_oW_eq by (cbn [to_item t_j]; lia). rewrite !Eq by apply Hp. rewrite Ha, HW. cbn [to_item t_j t_w]. rewrite Ej.
    rewrite (commitment_inj _ _ _ _ (rel_W _ _ _ _ Hp)). done.
  Qed.
End Shift.

(** The random values of the aggregated argument: a triple for each pair, and r1, r2 *)
Definition eqs_coins : Type := (list (Zr * Zr * Zr) * Zr * Zr)%type.
Definition eqs_coins_ok (n : nat) (κ : eqs_coins) : Prop := length κ.1.1 = n.
(** The first challenge is not 0. *)
Definition eqs_good {C : Curve} (e : Equalities C) (p : AggProof C) : Prop :=
  forall x, es_RO e (ap_Vaggr p ++ ap_Waggr p ++ es_V e ++ es_W e) [] (pe_Digest (es_PP e)) 1%nat = Ret [x] -> x <> 0.

Lemma msm_fmap_lin {M : Grp} {A} x (f g : A -> Zr) l (G : list M) :
  msm ((fun t => x * f t + g t) <$> l) G = gadd (gmul x (msm (f <$> l) G)) (msm (g <$> l) G).
Proof.
  revert G. induction l as [|t l IH]; intros [|P G]; cbn; [module..|]. change (list_fmap ?X ?Y ?F l) with (F <$> l). rewrite IH. module.
Qed.

Section ManyShift.
  Context {C : Curve} (N k : nat) (α : Zr) (pp : poePP C) (RO : poeRO C) (V W : list (G1 C)).
  Context (Hα : α <> 0) (Hpp : poe_params N (2 ^ k) α pp) (HRO : oracle_ok RO) (HF : pe_F pp <> gzero).
  Definition eqs_run (prs : list eqPair) (κ : eqs_coins) : res (AggProof C) :=
    Equalities_Prove (eq_statement RO pp V W prs) (pr_v <$> prs) (pr_w <$> prs) κ.1.1 κ.1.2 κ.2.
  Definition eqs_x (p : AggProof C) : Zr :=
    match RO (ap_Vaggr p ++ ap_Waggr p ++ V ++ W) [] (pe_Digest pp) 1%nat with Ret [x] => x | _ => 1 end.
  Definition eqs_shift (prs prs' : list eqPair) (p : AggProof C) (κ : eqs_coins) : eqs_coins :=
    let coins := recoins N α (eqs_x p) prs prs' κ.1.1 in
    (coins, dlog (pe_F pp) HF (gadd (ap_U p) (gopp (msm ((fun c => c.1.1) <$> coins) (pe_G pp)))),
     dlog (pe_F pp) HF (gadd (ap_V p) (gopp (msm (pr_entry <$> prs') (pe_G pp))))).

  Lemma eqs_run_spec prs κ : length prs = (2 ^ k)%nat -> eqs_coins_ok (2 ^ k) κ -> Forall (fun p => pair_inbounds N p /\ length (pr_v p) = N /\ length (pr_w p) = N) prs ->
    V = commitment N α <$> (pr_v <$> prs) -> W = commitment N α <$> (pr_w <$> prs) ->
    let its := zip_with to_item prs κ.1.1 in let Va := item_V N α <$> its in let Wa := item_W N α <$> its in
    exists x, RO (Va ++ Wa ++ V ++ W) [] (pe_Digest pp) 1%nat = Ret [x] /\
    eqs_run prs κ = eqs_finish (eq_statement RO pp V W prs) k Va Wa x
      (gadd (gmul κ.1.2 (pe_F pp)) (msm ((fun c => c.1.1) <$> κ.1.1) (pe_G pp))) (gadd (gmul κ.2 (pe_F pp)) (msm (pr_entry <$> prs) (pe_G pp)))
      ((fun t => x * t_u t + t_vI t) <$> its) (poe_negZr (κ.1.2 * x + κ.2)) (item_oV N α x <$> its) (item_oW N α x <$> its).
  Proof.
    destruct Hpp as (Hpp' & HG & HH). intros Hm Hκ Hok EV EW its Va Wa. destruct κ as [[coins r1] r2]. unfold eqs_coins_ok in Hκ. cbn [fst snd] in *.
    assert (Ei : forall {A} (f : eqItem -> A) (g : eqPair -> A), (forall p c, f (to_item p c) = g p) -> f <$> its = g <$> prs)
      by (intros; apply zip_fmap_l; [lia|done]).
    assert (Lits : length its = (2 ^ k)%nat) by (unfold its; rewrite zip_with_length; lia).
    assert (Ec : (fun t => (t_u t, t_η t, t_ν t)) <$> its = coins).
    { unfold its. rewrite (zip_fmap_r _ _ id) by (try lia; intros a [[? ?] ?]; done). apply list_fmap_id. }
    assert (Eu : t_u <$> its = (fun c => c.1.1) <$> coins).
    { unfold its. rewrite (zip_fmap_r _ _ (fun c => c.1.1)) by (try lia; intros a [[? ?] ?]; done). done. }
    destruct (HRO (Va ++ Wa ++ V ++ W) [] (pe_Digest pp) 1%nat) as (xl & Hx & Lx). destruct xl as [|x [|]]; try (cbn in Lx; lia).
    exists x. split; [exact Hx|]. unfold eqs_run. cbn [fst snd].
    pose proof (equalities_run N α (eq_statement RO pp V W prs) k HRO Hpp' HG HH its r1 r2 x Lits) as H.
    cbn [es_RO es_PP es_V es_W es_I es_J eq_statement] in H. fold Va Wa in H.
    rewrite (Ei _ t_v pr_v), (Ei _ t_w pr_w), Ec, Eu, (Ei _ t_vI pr_entry) in H by done. apply H.
    - apply Forall_lookup. intros j t Ht. unfold its in Ht. rewrite lookup_zip_with in Ht.
      destruct (prs !! j) as [q|] eqn:Eq; [|done]. destruct (coins !! j); [|done]. cbn in Ht. injection Ht as <-.
      rewrite Forall_lookup in Hok. destruct (Hok _ _ Eq) as ([Hi Hj] & Lv & Lw). unfold item_ok, to_item. cbn. lia.
    - rewrite EV, <- list_fmap_compose. symmetry. apply Ei. done.
    - rewrite EW, <- list_fmap_compose. symmetry. apply Ei. done.
    - symmetry. apply Ei. done.
    - symmetry. apply Ei. done.
    - exact Hx.
  Qed.
  Lemma eqs_finish_parts (e : Equalities C) Va Wa x U V' a ρ oV oW (p : AggProof C) : eqs_finish e k Va Wa x U V' a ρ oV oW = Ret p ->
    ap_Vaggr p = Va /\ ap_Waggr p = Wa /\ ap_U p = U /\ ap_V p = V'.
  Proof.
    intros E. unfold eqs_finish in E. apply rbind_inv in E as (ts & _ & E). apply rbind_inv in E as (bp & _ & E).
    apply rbind_inv in E as (ipa & _ & E). apply rbind_inv in E as (ipp & _ & E). injection E as <-. done.
  Qed.

  Lemma eqs_shift_run prs prs' (p : AggProof C) κ : length prs = (2 ^ k)%nat -> Forall2 (pair_rel (C:=C) N α) prs prs' ->
    V = commitment N α <$> (pr_v <$> prs) -> W = commitment N α <$> (pr_w <$> prs) ->
    eqs_coins_ok (2 ^ k) κ -> eqs_good (eq_statement RO pp V W prs) p -> eqs_run prs κ = Ret p ->
    eqs_coins_ok (2 ^ k) (eqs_shift prs prs' p κ) /\ eqs_run prs' (eqs_shift prs prs' p κ) = Ret p /\ eqs_shift prs' prs p (eqs_shift prs prs' p κ) = κ.
  Proof.
    intros Hm Hrel EV EW Hκ Hg E. pose proof (Forall2_length _ _ _ Hrel) as Hm'.
    assert (Hok : Forall (fun p => pair_inbounds N p /\ length (pr_v p) = N /\ length (pr_w p) = N) prs).
    { clear -Hrel. induction Hrel as [|q q' l l' H _ IH]; constructor; [|done]. split; [apply H|]. split; apply H. }
    assert (Hok' : Forall (fun p => pair_inbounds N p /\ length (pr_v p) = N /\ length (pr_w p) = N) prs').
    { clear -Hrel. induction Hrel as [|q q' l l' H _ IH]; constructor; [|done]. apply pair_rel_sym in H. split; [apply H|]. split; apply H. }
    assert (EV' : V = commitment N α <$> (pr_v <$> prs')).
    { rewrite EV. clear -Hrel. induction Hrel as [|q q' l l' H _ IH]; [done|]. cbn. f_equal; [symmetry; apply H|exact IH]. }
    assert (EW' : W = commitment N α <$> (pr_w <$> prs')).
    { rewrite EW. clear -Hrel. induction Hrel as [|q q' l l' H _ IH]; [done|]. cbn. f_equal; [symmetry; apply H|exact IH]. }
    assert (Hij : eq_statement RO pp V W prs' = eq_statement RO pp V W prs).
    { unfold eq_statement. f_equal; clear -Hrel; (induction Hrel as [|q q' l l' H _ IH]; [done|cbn; f_equal; [apply H|exact IH]]). }
    assert (Hκ' : eqs_coins_ok (2 ^ k) (eqs_shift prs prs' p κ)).
    { unfold eqs_coins_ok, eqs_shift. cbn [fst]. rewrite recoins_length; [done|lia|]. unfold eqs_coins_ok in Hκ. lia. }
    assert (Lc : length κ.1.1 = length prs) by (unfold eqs_coins_ok in Hκ; lia).
    split; [exact Hκ'|].
    destruct (eqs_run_spec prs κ Hm Hκ Hok EV EW) as (x & Hx & Er). rewrite E in Er. symmetry in Er.
    destruct (eqs_finish_parts _ _ _ _ _ _ _ _ _ _ _ Er) as (PV & PW & PU & PV').
    assert (Ex : eqs_x p = x) by (unfold eqs_x; rewrite PV, PW, Hx; done).
    assert (Hx0 : x <> 0). { apply Hg. cbn [es_RO es_PP es_V es_W eq_statement]. rewrite PV, PW. exact Hx. }
    destruct (eqs_run_spec prs' (eqs_shift prs prs' p κ) ltac:(lia) Hκ' Hok' EV' EW') as (x' & Hx' & Er').
    unfold eqs_shift at 1 2 in Hx'. cbn [fst snd] in Hx'. rewrite Ex in Hx'.
    rewrite (recoins_fmap (C:=C) N α) in Hx' by (first [done|intros; apply recoin_V; done]). rewrite (recoins_fmap (C:=C) N α) in Hx' by (first [done|intros; apply recoin_W; done]).
    rewrite Hx in Hx'. assert (x' = x) as -> by congruence. clear Hx'.
    rewrite Er'. clear Er'. set (κ' := eqs_shift prs prs' p κ) in *. set (coins' := recoins N α x prs prs' κ.1.1).
    assert (Ec' : κ'.1.1 = coins') by (unfold κ', eqs_shift; cbn [fst]; rewrite Ex; done).
    assert (ER1 : gmul κ'.1.2 (pe_F pp) = gadd (ap_U p) (gopp (msm ((fun c => c.1.1) <$> coins') (pe_G pp)))) by (unfold κ', eqs_shift; cbn [fst snd]; rewrite Ex, dlog_spec; done).
    assert (ER2 : gmul κ'.2 (pe_F pp) = gadd (ap_V p) (gopp (msm (pr_entry <$> prs') (pe_G pp)))) by (unfold κ', eqs_shift; cbn [fst snd]; rewrite dlog_spec; done).
    rewrite Ec'. rewrite Hij. unfold coins'.
    rewrite !(recoins_fmap (C:=C) N α) by (first [done|intros; apply recoin_V; done|intros; apply recoin_W; done|intros; apply (recoin_a (C:=C)); done|intros; apply (recoin_oV (C:=C)); done|intros; apply (recoin_oW (C:=C)); done]).
    fold coins'. rewrite ER1, ER2.
    assert (Ea : forall qs cs, length cs = length qs -> gadd (gmul x (msm ((fun c => c.1.1) <$> cs) (pe_G pp))) (msm (pr_entry <$> qs) (pe_G pp)) =
      msm ((fun t => x * t_u t + t_vI t) <$> zip_with to_item qs cs) (pe_G pp)).
    { intros qs cs L. rewrite msm_fmap_lin. f_equal; [f_equal|]; f_equal.
      - symmetry. apply zip_fmap_r; [lia|]. intros q [[? ?] ?]. done.
      - symmetry. apply zip_fmap_l; [lia|]. done. }
    assert (Lc' : length coins' = length prs') by (unfold coins'; rewrite recoins_length by lia; lia).
    assert (Ea' : gadd (gmul x (msm ((fun c => c.1.1) <$> coins') (pe_G pp))) (msm (pr_entry <$> prs') (pe_G pp)) =
      gadd (gmul x (msm ((fun c => c.1.1) <$> κ.1.1) (pe_G pp))) (msm (pr_entry <$> prs) (pe_G pp))).
    { rewrite !Ea by done. unfold coins'. rewrite (recoins_fmap (C:=C) N α) by (first [done|intros; apply (recoin_a (C:=C)); done]). done. }
    assert (Eρ : κ'.1.2 * x + κ'.2 = κ.1.2 * x + κ.2).
    { apply (gmul_cancel (pe_F pp)); [done|].
      transitivity (gadd (gmul x (gmul κ'.1.2 (pe_F pp))) (gmul κ'.2 (pe_F pp))); [module|]. rewrite ER1, ER2.
      transitivity (gadd (gadd (gmul x (ap_U p)) (ap_V p)) (gopp (gadd (gmul x (msm ((fun c => c.1.1) <$> coins') (pe_G pp))) (msm (pr_entry <$> prs') (pe_G pp))))); [module|].
      rewrite Ea', PU, PV'. module. }
    rewrite Eρ. split.
    - rewrite <- Er, <- PU, <- PV'. f_equal; module.
    - unfold eqs_shift. rewrite Ec', Ex. unfold coins' at 1 2. rewrite (recoins_back (C:=C) N α) by done. rewrite PU, PV'.
      assert (Ed : forall r (M : G1 C), gadd (gadd (gmul r (pe_F pp)) M) (gopp M) = gmul r (pe_F pp)) by (intros; module).
      rewrite !Ed, !dlog_gmul. destruct κ as [[? ?] ?]. done.
  Qed.
End ManyShift.

(** Two lists of vectors for which the same list of equalities about V, W holds give the same proofs. *)
Theorem C76_equalities (C : Curve) k N α (pp : poePP C) (RO : poeRO C) prs prs' V W :
  α <> 0 -> pe_F pp <> gzero -> poe_params N (2 ^ k) α pp -> oracle_ok RO -> length prs = (2 ^ k)%nat -> Forall (pair_inbounds N) prs ->
  pr_i <$> prs' = pr_i <$> prs -> pr_j <$> prs' = pr_j <$> prs ->
  mapM (Commit (pe_PP pp)) (pr_v <$> prs) = Ret V -> mapM (Commit (pe_PP pp)) (pr_w <$> prs) = Ret W -> Forall entries_equal prs ->
  mapM (Commit (pe_PP pp)) (pr_v <$> prs') = Ret V -> mapM (Commit (pe_PP pp)) (pr_w <$> prs') = Ret W -> Forall entries_equal prs' ->
  let e := eq_statement RO pp V W prs in
  same_messages (eqs_coins_ok (2 ^ k)) (eqs_good e)
    (fun κ => Equalities_Prove e (pr_v <$> prs) (pr_w <$> prs) κ.1.1 κ.1.2 κ.2)
    (fun κ => Equalities_Prove e (pr_v <$> prs') (pr_w <$> prs') κ.1.1 κ.1.2 κ.2).
Proof.
  intros Hα HF Hpp HRO Hm Hin Hi Hj HV HW Hq HV' HW' Hq' e. pose proof Hpp as (Hpp' & _).
  assert (HN : (1 <= N)%nat).
  { destruct prs as [|p l]; [cbn in Hm; pose proof (Nat.pow_nonzero 2 k); lia|]. apply Forall_cons in Hin. destruct Hin as [[H _] _]. lia. }
  rewrite Hpp' in HV, HW, HV', HW'. apply mapM_commit_inv in HV, HW, HV', HW'; [|done..].
  destruct HV as [Lv EV], HW as [Lw EW], HV' as [Lv' EV'], HW' as [Lw' EW'].
  assert (Hrel : Forall2 (pair_rel (C:=C) N α) prs prs').
  { rewrite EV in EV'. rewrite EW in EW'. clear EV EW Hm e. revert prs' Hi Hj Hq' Lv' Lw' EV' EW'.
    induction prs as [|p l IH]; intros [|p' l'] Hi Hj Hq' Lv' Lw' EV' EW'; [constructor|done|done|].
    cbn [fmap list_fmap] in *. apply cons_inv in Hi, Hj, EV', EW'. destruct Hi as [Hi1 Hi2], Hj as [Hj1 Hj2], EV' as [HV1 HV2], EW' as [HW1 HW2].
    apply Forall_cons in Hin, Hq, Hq', Lv, Lw, Lv', Lw'. destruct Hin, Hq, Hq', Lv, Lw, Lv', Lw'.
    constructor; [split; done|]. apply IH; done. }
  assert (Hst : eq_statement RO pp V W prs' = e) by (unfold e, eq_statement; rewrite Hi, Hj; done).
  apply (same_messages_intro _ _ _ _ (eqs_shift N α pp RO V W HF prs prs') (eqs_shift N α pp RO V W HF prs' prs)); intros κ p Hκ Hg E.
  - pose proof (eqs_shift_run N k α pp RO V W Hα Hpp HRO HF prs prs' p κ Hm Hrel EV EW Hκ Hg E) as H. unfold eqs_run in H. rewrite Hst in H. exact H.
  - assert (Hrel' : Forall2 (pair_rel (C:=C) N α) prs' prs) by (clear -Hrel; induction Hrel; constructor; [by apply pair_rel_sym|done]).
    pose proof (eqs_shift_run N k α pp RO V W Hα Hpp HRO HF prs' prs p κ) as H. unfold eqs_run in H. rewrite Hst in H.
    apply H; try done. rewrite <- (Forall2_length _ _ _ Hrel). done.
Qed.
Print Assumptions C76_equality.
Print Assumptions C76_equalities.
(** The second list of pairs opens the same commitments with 23 in place of 20 (trapdoor 3). *)
Definition toy_pairs' : list eqPair :=
  [MkPair [zr 1; zr 23; zr 30] 1 [zr 23; zr 1; zr 3] 0; MkPair [zr 4; zr 5; zr 6] 0 [zr 7; zr 4; zr 9] 1].
Lemma toy_dot_V : dot [zr 1; zr 23; zr 30] (pows (zr 3) 1 3) = dot [zr 10; zr 20; zr 30] (pows (zr 3) 1 3).
Proof. apply Zr_eq; vm_compute; reflexivity. Qed.
Lemma toy_pairs_V {C : Curve} : commitment (C:=C) 3 (zr 3) <$> (pr_v <$> toy_pairs') = commitment 3 (zr 3) <$> (pr_v <$> toy_pairs (zr 20)).
Proof. cbn [toy_pairs toy_pairs' fmap list_fmap pr_v]. unfold commitment. rewrite toy_dot_V. reflexivity. Qed.
Lemma toy_dot_W : dot [zr 23; zr 1; zr 3] (pows (zr 3) 1 3) = dot [zr 20; zr 2; zr 3] (pows (zr 3) 1 3).
Proof. apply Zr_eq; vm_compute; reflexivity. Qed.
Lemma toy_pairs_W {C : Curve} : commitment (C:=C) 3 (zr 3) <$> (pr_w <$> toy_pairs') = commitment 3 (zr 3) <$> (pr_w <$> toy_pairs (zr 20)).
Proof. cbn [toy_pairs toy_pairs' fmap list_fmap pr_w]. unfold commitment. rewrite toy_dot_W. reflexivity. Qed.
Lemma poe_F_made (C : Curve) N m α pp : poe_NewPublicParams (C:=C) N m α = Ret pp -> pe_F pp = rand_gen "POE F" 0.
Proof. intros H. unfold poe_NewPublicParams in H. cbn [RandGenVec seq fmap list_fmap idx rbind lookup list_lookup] in H. injection H as <-. reflexivity. Qed.
Lemma poe_RO_1 (C : Curve) gs is d x : poe_RO (C:=C) gs is d 1%nat = Ret [x] -> x = fe (hmac C (compressParameters gs is d) (be_bytes 2 (Z.of_nat 0))).
Proof. intros H. rewrite poe_RO_spec in H. cbn [seq fmap list_fmap] in H. congruence. Qed.
Lemma eqs_good_RO (C : Curve) pp V W prs (p : AggProof C) : (forall key m, fe (hmac C key m) <> 0) -> eqs_good (eq_statement poe_RO pp V W prs) p.
Proof. intros H x Hx. unfold eq_statement in Hx. cbn [es_RO es_PP es_V es_W] in Hx. apply poe_RO_1 in Hx. rewrite Hx. apply H. Qed.
Lemma toy_eqs_good pp V W prs (p : AggProof toy) : eqs_good (eq_statement poe_RO pp V W prs) p.
Proof. exact (eqs_good_RO toy pp V W prs p toy_hmac_neq_0). Qed.
Example C76_nonvacuous : exists (pp : poePP toy) V W p, poe_NewPublicParams 3 2 (zr 3) = Ret pp /\ pe_F pp <> gzero /\
  let prs := toy_pairs (zr 20) in
  mapM (Commit (pe_PP pp)) (pr_v <$> prs) = Ret V /\ mapM (Commit (pe_PP pp)) (pr_w <$> prs) = Ret W /\ Forall entries_equal prs /\
  mapM (Commit (pe_PP pp)) (pr_v <$> toy_pairs') = Ret V /\ mapM (Commit (pe_PP pp)) (pr_w <$> toy_pairs') = Ret W /\ Forall entries_equal toy_pairs' /\
  let e := eq_statement poe_RO pp V W prs in
  Equalities_Prove e (pr_v <$> prs) (pr_w <$> prs) toy_eq_coins (zr 8) (zr 9) = Ret p /\ eqs_good e p /\
  exists κ, Equalities_Prove e (pr_v <$> toy_pairs') (pr_w <$> toy_pairs') κ.1.1 κ.1.2 κ.2 = Ret p.
Proof.
  destruct (C28_generated_params toy 3 2 (zr 3)) as (pp & Hnew & Hwf). pose proof Hwf as (Hw & _). set (prs := toy_pairs (zr 20)).
  assert (HF : pe_F pp <> gzero) by (rewrite (poe_F_made toy 3 2 (zr 3) pp Hnew); apply toy_hash_to_g1_neq_0).
  assert (H3 : zr 3 <> 0) by (intros E; apply (f_equal zv) in E; vm_compute in E; done).
  assert (HV : mapM (Commit (pe_PP pp)) (pr_v <$> prs) = Ret (commitment 3 (zr 3) <$> (pr_v <$> prs)))
    by (rewrite Hw; apply toy_mapM_commit; [lia|repeat constructor]).
  assert (HW : mapM (Commit (pe_PP pp)) (pr_w <$> prs) = Ret (commitment 3 (zr 3) <$> (pr_w <$> prs)))
    by (rewrite Hw; apply toy_mapM_commit; [lia|repeat constructor]).
  assert (HV' : mapM (Commit (pe_PP pp)) (pr_v <$> toy_pairs') = Ret (commitment 3 (zr 3) <$> (pr_v <$> prs)))
    by (rewrite Hw, toy_mapM_commit, toy_pairs_V by (try lia; repeat constructor); reflexivity).
  assert (HW' : mapM (Commit (pe_PP pp)) (pr_w <$> toy_pairs') = Ret (commitment 3 (zr 3) <$> (pr_w <$> prs)))
    by (rewrite Hw, toy_mapM_commit, toy_pairs_W by (try lia; repeat constructor); reflexivity).
  revert HV HW HV' HW'. generalize (commitment (C:=toy) 3 (zr 3) <$> (pr_v <$> prs)) (commitment (C:=toy) 3 (zr 3) <$> (pr_w <$> prs)). intros V W HV HW HV' HW'.
  assert (Hin : Forall (pair_inbounds 3) prs) by (unfold prs, toy_pairs, pair_inbounds; repeat constructor; cbn; lia).
  assert (Hq : Forall entries_equal prs) by (unfold prs, toy_pairs, entries_equal; repeat constructor).
  assert (Hq' : Forall entries_equal toy_pairs') by (unfold toy_pairs', entries_equal; repeat constructor).
  destruct (C29_equalities_complete toy 1 3 (zr 3) pp poe_RO prs V W toy_eq_coins (zr 8) (zr 9) Hwf (C28_package_oracle toy)) as (p & Hp & Hv); [done|done|done|done|exact HV|exact HW|].
  assert (Hg : eqs_good (eq_statement poe_RO pp V W prs) p).
  { apply toy_eqs_good. }
  destruct (C76_equalities toy 1 3 (zr 3) pp poe_RO prs toy_pairs' V W H3 HF Hwf (C28_package_oracle toy)) as (φ & ψ & H); [done..|].
  destruct (H (toy_eq_coins, zr 8, zr 9) p) as [H1 _]; [done|exact Hg|]. destruct (H1 Hp) as (_ & H2 & _).
  exists pp, V, W, p. cbv zeta. repeat (split; [assumption|]). eexists. exact H2.
Qed.
