(** Properties C74 and C75: vector commitments and sum arguments reveal nothing but what they are meant to.
    Specification of "reveal nothing": [same_messages] in Hiding.v. *)
From Verif Require Import Hiding Pp_facts Prop_pp Sum_facts Extract Prop_sum Toy.
Local Open Scope Zr_scope.

(** ** C74: vector commitments *)
(** What the owner of a vector commitment shows: the commitment to v followed by the blinding r, and openings at some
    positions. *)
Definition shown {C : Curve} (pp : PP C) (v : list Zr) (is : list nat) (r : Zr) : res (G1 C * list (Zr * G1 C)) :=
  let! c := Commit pp (v ++ [r]) in
  let! os := mapM (fun i => Open pp i (v ++ [r])) is in
  Ret (c, os).
(** Two vectors that agree on the opened positions (none of which is the blinding's) cannot be told apart. *)
Theorem C74_hiding (C : Curve) N α v v' is : α <> 0 -> (2 <= N)%nat -> length v = (N - 1)%nat -> length v' = (N - 1)%nat ->
  (forall i, i ∈ is -> (i < N - 1)%nat /\ v !! i = v' !! i) ->
  let pp := NewPublicParams (C:=C) N α in
  same_messages (fun _ => True) (fun _ => True) (shown pp v is) (shown pp v' is) /\
  forall r, exists m, shown pp v is r = Ret m.
Proof.
  intros Hα HN Hv Hv' Hag pp. set (p1 := pows α 1 (N - 1)). assert (Hp : α ^ N <> 0) by (by apply zpow_neq_0).
  assert (Lp : length p1 = (N - 1)%nat) by apply pows_length.
  assert (EN : pows α 1 N = p1 ++ [α ^ N]).
  { replace N with (N - 1 + 1)%nat at 1 by lia. rewrite pows_app. unfold p1. f_equal. unfold pows. cbn [seq fmap list_fmap]. do 2 f_equal. lia. }
  assert (Dot : forall u r, length u = (N - 1)%nat -> dot (u ++ [r]) (pows α 1 N) = dot u p1 + r * α ^ N).
  { intros u r Hu. rewrite EN, dot_app by lia. cbn [dot]. ring. }
  assert (Shown : forall u r, length u = (N - 1)%nat -> shown pp u is r =
    Ret (gmul (dot u p1 + r * α ^ N) (gen1 C), (fun i => (nth i u 0, gmul (α ^ (N - i) * (dot u p1 + r * α ^ N) - nth i u 0 * α ^ (N + 1)) (gen1 C))) <$> is)).
  { intros u r Hu. unfold shown, pp. rewrite commit_spec by (rewrite ?app_length; cbn [length]; lia). cbn [rbind]. unfold commitment. rewrite Dot by done.
    rewrite (mapM_ret _ (fun i => (nth i u 0, gmul (α ^ (N - i) * (dot u p1 + r * α ^ N) - nth i u 0 * α ^ (N + 1)) (gen1 C)))); [done|].
    intros i Hi. destruct (Hag i Hi) as [Hi' _]. rewrite open_spec by (rewrite ?app_length; cbn [length]; lia). unfold open_exp. rewrite Dot by done.
    rewrite app_nth1 by lia. done. }
  assert (Key : forall u u' r r', length u = (N - 1)%nat -> length u' = (N - 1)%nat -> (forall i, i ∈ is -> u !! i = u' !! i) ->
    dot u p1 + r * α ^ N = dot u' p1 + r' * α ^ N -> shown pp u is r = shown pp u' is r').
  { intros u u' r r' Hu Hu' Ha E. rewrite !Shown, E by done. do 2 f_equal. apply list_fmap_ext. intros j i Hj. apply elem_of_list_lookup_2 in Hj as Hi.
    rewrite !nth_lookup, (Ha i Hi). done. }
  assert (Sh : forall a b r, a + r * α ^ N = b + (r + zinv (α ^ N) * (a - b)) * α ^ N).
  { intros a b r. transitivity (b + r * α ^ N + (zinv (α ^ N) * α ^ N) * (a - b)); [rewrite zinv_l by done; ring|ring]. }
  split; [|intros r; rewrite Shown by done; eauto].
  apply (same_messages_intro _ _ _ _ (fun _ r => r + zinv (α ^ N) * (dot v p1 - dot v' p1)) (fun _ r => r + zinv (α ^ N) * (dot v' p1 - dot v p1))); intros r m _ _ E; (split; [done|]); (split; [|ring]); rewrite <- E; symmetry.
  - apply Key; [done..|intros i Hi; apply Hag, Hi|]. apply Sh.
  - apply Key; [done..|intros i Hi; symmetry; apply Hag, Hi|]. apply Sh.
Qed.
(** In particular every commitment is a commitment to any vector. *)
Theorem C74_any_vector (C : Curve) N α v v' r : α <> 0 -> (2 <= N)%nat -> length v = (N - 1)%nat -> length v' = (N - 1)%nat ->
  exists r', Commit (NewPublicParams (C:=C) N α) (v ++ [r]) = Commit (NewPublicParams (C:=C) N α) (v' ++ [r']).
Proof.
  intros Hα HN Hv Hv'. destruct (C74_hiding C N α v v' [] Hα HN Hv Hv') as [(φ & ψ & H) Hex]; [intros i Hi; by apply elem_of_nil in Hi|].
  destruct (Hex r) as [m Hm]. destruct (H r m I I) as [H' _]. destruct (H' Hm) as (_ & H2 & _). exists (φ r).
  unfold shown in Hm, H2. rewrite <- Hm in H2. destruct (Commit _ (v ++ [r])); cbn [rbind mapM] in *; destruct (Commit _ (v' ++ [φ r])); cbn [rbind mapM] in *; congruence.
Qed.
(** With the trapdoor 0, which NewPublicParams does not exclude, the blinding has no effect. *)
Theorem C74_trapdoor_0 (C : Curve) N v r r' : (1 <= N)%nat -> length v = (N - 1)%nat ->
  Commit (NewPublicParams (C:=C) N 0) (v ++ [r]) = Commit (NewPublicParams (C:=C) N 0) (v ++ [r']).
Proof.
  intros HN Hv. rewrite !commit_spec by (rewrite ?app_length; cbn [length]; lia).
  assert (E : forall u a n, (1 <= a)%nat -> dot u (pows 0 a n) = 0).
  { intros u. induction u as [|x u IH]; intros a [|n] Ha; [done..|]. unfold pows in *. cbn [seq fmap list_fmap dot]. rewrite IH by lia.
    destruct a as [|a]; [lia|]. change (0 ^ S a) with (0 * 0 ^ a). ring. }
  unfold commitment. rewrite !E by lia. done.
Qed.
Example C74_nonvacuous : let pp := NewPublicParams (C:=toy) 4 (zr 7) in
  same_messages (fun _ => True) (fun _ => True) (shown pp [zr 1; zr 2; zr 3] [1%nat]) (shown pp [zr 5; zr 2; zr 0] [1%nat]).
Proof.
  destruct (C74_hiding toy 4 (zr 7) [zr 1; zr 2; zr 3] [zr 5; zr 2; zr 0] [1%nat]) as [H _]; [done|lia|done|done| |exact H].
  intros i Hi. apply elem_of_list_singleton in Hi as ->. split; [lia|done].
Qed.

(** ** C75: the sum argument *)
Definition sum_coins_ok (n : nat) (κ : list Zr * Zr) : Prop := length κ.1 = n.
(** The challenge is not 0. *)
Definition sum_good {C : Curve} (V : G1 C) (p : sumProof C) : Prop := randomOracleCVW (sm_c p) V (sm_W p) <> Ret 0.

Section Sum.
  Context {C : Curve} (pp : sumPP C) (k : nat).
  Hypothesis Hpp : sum_params k pp.
  Let n := (2 ^ k)%nat.

  (** The proof depends on w'Gs+r'F, <w,b>, v + x·w and r + x·r' only. *)
  Definition sum_finish (V W : G1 C) (c x : Zr) (a : list Zr) (ρ : Zr) : res (sumProof C) :=
    let! arg := NewInnerProdArgument (sum_ipa pp) a (sum_b n) in
    let! π := IPA_Prove arg in
    Ret (MkSumProof W c (sum_negZr ρ) π).
  Lemma sum_new_spec V v r w r' : length v = n -> length w = n ->
    let W := commit_sum pp w r' in let c := dot w (sum_b n) in let x := sum_x c V W in
    sum_NewArgument pp V v r w r' = sum_finish V W c x (vadd v (vscale x w)) (r + r' * x).
  Proof.
    intros Hv Hw W c x. apply sum_params_wf in Hpp as (HG & HH & Hb & HB). pose proof (pow2_pos k) as Hk. fold n in HG, HH, Hb, Hk.
    assert (Lb : length (sum_b n) = n) by (apply sum_b_length; lia).
    unfold sum_NewArgument. rewrite mulv_sum by (first [lia|apply nonempty_len; lia]). cbn [rbind].
    rewrite Hb, vec_innerprod_spec by lia. cbn [rbind]. unfold randomOracleCVW. rewrite fe_sha. cbn [rbind].
    change (gadd (gmul r' (sp_F pp)) (msm w (sp_Gs pp))) with W. change (dot w (sum_b n)) with c. change (fe (sha256 C (Zr_Bytes c ++ enc1 C V ++ enc1 C W))) with x.
    rewrite sum_ipaPP_spec by lia. cbn [rbind]. rewrite vec_mul_spec, vec_add_spec by (rewrite vscale_length; lia). cbn [rbind]. done.
  Qed.

  Lemma sum_shift V v r v' r' κ π : length v = n -> length v' = n -> dot v (sum_b n) = dot v' (sum_b n) -> commit_sum pp v r = commit_sum pp v' r' ->
    sum_coins_ok n κ -> sum_good V π -> sum_NewArgument pp V v r κ.1 κ.2 = Ret π ->
    let i := zinv (sum_x (sm_c π) V (sm_W π)) in
    sum_NewArgument pp V v' r' (remask i v v' κ.1) (κ.2 + i * (r - r')) = Ret π.
  Proof.
    intros Hv Hv' Hd Hc Hκ Hg E i. destruct κ as [w ρ]. unfold sum_coins_ok in Hκ. cbn [fst snd] in *. rewrite sum_new_spec in E by done.
    set (W := commit_sum pp w ρ) in *. set (c := dot w (sum_b n)) in *. set (x := sum_x c V W) in *.
    assert (Eπ : sm_c π = c /\ sm_W π = W).
    { unfold sum_finish in E. destruct (NewInnerProdArgument _ _ _); [|done|done]. cbn [rbind] in E. destruct (IPA_Prove _); [|done|done]. cbn [rbind] in E. injection E as <-. done. }
    assert (Ei : i = zinv x) by (unfold i; rewrite (proj1 Eπ), (proj2 Eπ); done). clearbody i. subst i. set (i := zinv x).
    assert (Hx : x <> 0) by (intros E0; apply Hg; unfold randomOracleCVW; rewrite fe_sha, (proj1 Eπ), (proj2 Eπ); f_equal; exact E0).
    rewrite sum_new_spec by (done || apply remask_length; done).
    assert (EW : commit_sum pp (remask i v v' w) (ρ + i * (r - r')) = W).
    { unfold commit_sum. rewrite (remask_msm i v v' w _ n) by done.
      transitivity (gadd W (gmul i (gadd (commit_sum pp v r) (gopp (commit_sum pp v' r'))))); [unfold W, commit_sum; module|]. rewrite Hc. module. }
    assert (Ec : dot (remask i v v' w) (sum_b n) = c). { rewrite (remask_dot i v v' w _ n) by done. rewrite Hd. unfold c. ring. }
    rewrite EW, Ec. fold x. unfold i. rewrite (remask_sum x v v' w n) by done.
    replace (r' + (ρ + zinv x * (r - r')) * x) with (r + ρ * x); [exact E|].
    transitivity (r' + ρ * x + (zinv x * x) * (r - r')); [rewrite zinv_l by done; ring|ring].
  Qed.
  Lemma sum_same V v r v' r' : length v = n -> length v' = n -> dot v (sum_b n) = dot v' (sum_b n) -> commit_sum pp v r = commit_sum pp v' r' ->
    same_messages (sum_coins_ok n) (sum_good V) (fun κ => sum_NewArgument pp V v r κ.1 κ.2) (fun κ => sum_NewArgument pp V v' r' κ.1 κ.2).
  Proof.
    intros Hv Hv' Hd Hc.
    set (T := fun v r v' r' (π : sumProof C) (κ : list Zr * Zr) => let i := zinv (sum_x (sm_c π) V (sm_W π)) in (remask i v v' κ.1, κ.2 + i * (r - r'))).
    assert (B : forall v r v' r' π κ, length v = n -> length v' = n -> sum_coins_ok n κ -> T v' r' v r π (T v r v' r' π κ) = κ).
    { intros u s u' s' π [w ρ] Hu Hu' Hκ. unfold T. cbn [fst snd]. rewrite (remask_back _ u u' w n) by done. f_equal. ring. }
    apply (same_messages_intro _ _ _ _ (T v r v' r') (T v' r' v r)); intros κ π Hκ Hg E; (split; [apply remask_length; done|]); (split; [|by apply B]).
    - apply (sum_shift V v r v' r'); done.
    - apply (sum_shift V v' r' v r); done.
  Qed.
End Sum.

(** Two openings of V, both with a correct sum, give the same proofs. *)
Theorem C75_sum_argument (C : Curve) (pp : sumPP C) k v r v' r' : sum_params k pp ->
  length v = (2 ^ k)%nat -> length v' = (2 ^ k)%nat -> sums_up v -> sums_up v' -> commit_sum pp v r = commit_sum pp v' r' ->
  let V := commit_sum pp v r in
  same_messages (sum_coins_ok (2 ^ k)) (sum_good V) (fun κ => sum_NewArgument pp V v r κ.1 κ.2) (fun κ => sum_NewArgument pp V v' r' κ.1 κ.2).
Proof.
  intros Hpp Hv Hv' Hs Hs' Hc V. apply sum_same; [done..| |done].
  rewrite (proj1 (sums_up_dot v k Hv) Hs), (proj1 (sums_up_dot v' k Hv') Hs'). done.
Qed.
(** The aggregated argument: the challenge of the aggregate is not 0. *)
Definition sum_agg_good {C : Curve} (V : list (G1 C)) (p : sumProof C) : Prop :=
  forall t A, createHVZKChallenge V (length V) = Ret t -> rbind (G1v_MulV V t) G1v_Sum = Ret A -> sum_good A p.
Theorem C75_aggregated (C : Curve) (pp : sumPP C) k vs rs vs' rs' : sum_params k pp -> vs <> [] ->
  Forall (fun v => length v = (2 ^ k)%nat /\ sums_up v) vs -> Forall (fun v => length v = (2 ^ k)%nat /\ sums_up v) vs' ->
  length rs = length vs -> length vs' = length vs -> length rs' = length vs ->
  zip_with (commit_sum pp) vs rs = zip_with (commit_sum pp) vs' rs' ->
  let V := zip_with (commit_sum pp) vs rs in
  same_messages (sum_coins_ok (2 ^ k)) (sum_agg_good V)
    (fun κ => sum_NewAggregatedArgument pp V vs rs κ.1 κ.2) (fun κ => sum_NewAggregatedArgument pp V vs' rs' κ.1 κ.2).
Proof.
  intros Hpp Hne Hvs Hvs' Lr Lv' Lr' HV V. set (t := PowerSeries (length vs) (sum_τ V)). assert (Lt : length t = length vs) by apply power_series_length.
  assert (LV : length V = length vs) by (unfold V; rewrite zip_with_length; lia).
  assert (HVne : V <> []) by (apply nonempty_len; rewrite LV; destruct vs; [done|cbn; lia]).
  set (A := msm t V).
  assert (Hrun : forall us ss w ρ, Forall (fun v => length v = (2 ^ k)%nat /\ sums_up v) us -> length us = length vs -> length ss = length vs ->
    sum_NewAggregatedArgument pp V us ss w ρ = sum_NewArgument pp A (aggr (2 ^ k) us t) (dot ss t) w ρ /\
    length (aggr (2 ^ k) us t) = (2 ^ k)%nat /\ dot (aggr (2 ^ k) us t) (sum_b (2 ^ k)) = 0).
  { intros us ss w ρ Hus Lu Ls.
    assert (Hl : Forall (fun x => length x = (2 ^ k)%nat) us) by (eapply Forall_impl; [exact Hus|]; intros x [H _]; exact H).
    assert (Hd : Forall (fun x => dot x (sum_b (2 ^ k)) = 0) us).
    { eapply Forall_impl; [exact Hus|]. intros x [H1 H2]. apply (sums_up_dot x k H1). done. }
    split; [|split; [apply aggr_length; done|apply dot_aggr; done]].
    unfold sum_NewAggregatedArgument. rewrite hvzk_spec. cbn [rbind]. rewrite Lu. fold t.
    destruct us as [|u0 us']; [destruct vs; done|]. cbn [idx lookup list_lookup rbind].
    assert (L0 : length u0 = (2 ^ k)%nat) by (apply Forall_cons in Hl; apply Hl). rewrite L0.
    rewrite aggr_spec by (done || congruence). cbn [rbind]. rewrite vec_innerprod_spec by lia. cbn [rbind].
    rewrite mulv_sum by (done || lia). cbn [rbind]. done. }
  assert (Hlv : Forall (fun x => length x = (2 ^ k)%nat) vs) by (eapply Forall_impl; [exact Hvs|]; intros x [H _]; exact H).
  assert (Hlv' : Forall (fun x => length x = (2 ^ k)%nat) vs') by (eapply Forall_impl; [exact Hvs'|]; intros x [H _]; exact H).
  destruct (Hrun vs rs [] 0 Hvs eq_refl Lr) as (_ & L1 & D1). destruct (Hrun vs' rs' [] 0 Hvs' Lv' Lr') as (_ & L2 & D2).
  assert (Ec : commit_sum pp (aggr (2 ^ k) vs t) (dot rs t) = commit_sum pp (aggr (2 ^ k) vs' t) (dot rs' t)).
  { unfold commit_sum. rewrite <- (msm_aggr (2 ^ k) (sp_F pp) (sp_Gs pp) vs rs t), <- (msm_aggr (2 ^ k) (sp_F pp) (sp_Gs pp) vs' rs' t) by (done || lia).
    f_equal. exact HV. }
  destruct (sum_same pp k Hpp A _ (dot rs t) _ (dot rs' t) L1 L2) as (φ & ψ & H); [congruence|exact Ec|]. exists φ, ψ. intros κ π Hκ Hg.
  assert (Hg' : sum_good A π).
  { apply (Hg t A); [rewrite hvzk_spec, LV; done|]. apply mulv_sum; [lia|done]. }
  destruct (H κ π Hκ Hg') as [H1 H2]. split; intros E.
  - rewrite (proj1 (Hrun vs rs _ _ Hvs eq_refl Lr)) in E. destruct (H1 E) as (A1 & A2 & A3).
    split; [exact A1|]. split; [|exact A3]. rewrite (proj1 (Hrun vs' rs' _ _ Hvs' Lv' Lr')). exact A2.
  - rewrite (proj1 (Hrun vs' rs' _ _ Hvs' Lv' Lr')) in E. destruct (H2 E) as (A1 & A2 & A3).
    split; [exact A1|]. split; [|exact A3]. rewrite (proj1 (Hrun vs rs _ _ Hvs eq_refl Lr)). exact A2.
Qed.

(** In the toy curve every generator is a known multiple of every other one; here the openings (1,1) and (2,2). *)
Lemma toy_two_openings (pp : sumPP toy) v v' r : sp_F pp <> gzero -> exists r', commit_sum pp v r = commit_sum pp v' r'.
Proof.
  intros HF. destruct (multiple_of (sp_F pp) (gadd (commit_sum pp v r) (gopp (msm v' (sp_Gs pp)))) HF) as [r' E]. exists r'.
  unfold commit_sum at 2. rewrite <- E. generalize (commit_sum pp v r) (msm v' (sp_Gs pp)). intros. module.
Qed.
Example C75_nonvacuous : exists (pp : sumPP toy) r1 r2, sum_params (C:=toy) 1 pp /\ commit_sum pp [zr 1; zr 1] (zr 5) = commit_sum pp [zr 2; zr 2] r1 /\
  zip_with (commit_sum pp) [[zr 1; zr 1]; [zr 3; zr 3]] [zr 5; zr 6] = zip_with (commit_sum pp) [[zr 2; zr 2]; [zr 0; zr 0]] [r1; r2] /\
  sums_up [zr 1; zr 1] /\ sums_up [zr 2; zr 2] /\ sums_up [zr 3; zr 3] /\ sums_up [zr 0; zr 0] /\
  exists κ p, sum_coins_ok 2 κ /\ sum_NewArgument pp (commit_sum pp [zr 1; zr 1] (zr 5)) [zr 1; zr 1] (zr 5) κ.1 κ.2 = Ret p /\
  sum_good (commit_sum pp [zr 1; zr 1] (zr 5)) p.
Proof.
  destruct (sum_new_params (C:=toy) 1) as (pp & Hnew & (H1 & H2 & H3 & H4) & _ & _ & HF' & _).
  assert (Hpp : sum_params 1 pp) by (unfold sum_params; rewrite H3 in *; done).
  assert (HF : sp_F pp <> gzero).
  { unfold RandGenVec in HF'. cbn [seq fmap list_fmap] in HF'. apply cons_inv in HF'. destruct HF' as [-> _]. apply toy_hash_to_g1_neq_0. }
  destruct (toy_two_openings pp [zr 1; zr 1] [zr 2; zr 2] (zr 5) HF) as [r' E'].
  destruct (toy_two_openings pp [zr 3; zr 3] [zr 0; zr 0] (zr 6) HF) as [r'' E''].
  assert (S : forall x, sums_up [x; x]).
  { intros x. exists [x]. cbn [app]. do 2 f_equal. unfold zsum. cbn [foldr]. ring. }
  exists pp, r', r''. split; [exact Hpp|]. split; [exact E'|]. split; [cbn [zip_with]; rewrite E', E''; done|].
  split; [apply S|]. split; [apply S|]. split; [apply S|]. split; [apply S|].
  destruct (C24_sum_complete toy pp 1 [zr 1; zr 1] (zr 5) [zr 4; zr 6] (zr 7) Hpp) as (p & Hp & _); [done|apply S|done|].
  exists ([zr 4; zr 6], zr 7), p. split; [done|]. split; [exact Hp|]. unfold sum_good, randomOracleCVW. intros E. rewrite fe_sha in E.
  apply (f_equal (fun x => match x with Ret y => y | _ => 1 end)) in E. apply toy_challenge_neq_0 in E. done.
Qed.
Print Assumptions C74_hiding.
Print Assumptions C74_any_vector.
Print Assumptions C74_trapdoor_0.
Print Assumptions C75_sum_argument.
Print Assumptions C75_aggregated.
