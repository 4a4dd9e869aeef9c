(** Property C93: equality arguments about the last slot (poe/poe.go). *)
From Verif Require Import Poe_facts Prop_sum Prop_poe Poe_last Toy.
Local Open Scope Zr_scope.

(** The prover's second coin for a vector, if the entry in question is the last one *)
Definition last_coin (N i : nat) (ν : Zr) : Zr := if (i =? N - 1)%nat then ν else 0.
Lemma excess_last N α i ν : (i < N)%nat -> ν * excess N α i = last_coin N i ν * (α ^ (N + 1) - 1).
Proof.
  intros H. unfold excess, last_coin. destruct (Nat.ltb_spec (i + 1) N), (Nat.eqb_spec i (N - 1)); try lia; ring.
Qed.

(** The verdict on an honest proof that v[i] = w[j], for all slots i, j: it is accepted iff α^(N+1) = 1 or the weighted coins of
    the last slots cancel.  If neither i nor j is the last slot, the latter is always the case (C28). *)
Theorem C93_last_slot (C : Curve) N m α (pp : poePP C) (RO : poeRO C) v w V W i j u η ν :
  poe_params N m α pp -> oracle_ok RO -> (2 <= N)%nat ->
  Commit (pe_PP pp) v = Ret V -> Commit (pe_PP pp) w = Ret W ->
  (i < N)%nat -> (j < N)%nat -> v !! i = w !! j ->
  exists Υ x t0 t1 rest err, Equality_Prove (MkEq RO pp V W i j) v w u η ν = Ret Υ /\
    RO [V; W; ep_V Υ; ep_W Υ] [] (pe_Digest pp) 1%nat = Ret [x] /\
    RO [V; W; gmul x (ep_V Υ); gmul x (ep_W Υ); gmul (ep_C Υ) (gen1 C)] [i; j] (pe_Digest pp) 2%nat = Ret (t0 :: t1 :: rest) /\
    Equality_Verify (MkEq RO pp V W i j) Υ = Ret err /\
    (err = nil_error <-> α ^ (N + 1) = 1 \/ x * (t0 * last_coin N i ν + t1 * last_coin N j η) = 0).
Proof.
  intros (Hpp & _) HRO HN HV HW Hi Hj Heq. rewrite Hpp in HV, HW.
  apply commit_inv in HV, HW; [|lia..]. destruct HV as [Hv ->], HW as [Hw ->].
  destruct (equality_prove_last N α HN (MkEq RO pp (commitment N α v) (commitment N α w) i j)) with (v := v) (w := w) (u := u) (η := η) (ν := ν)
    as (Υ & H1 & H2); cbn [eq_RO eq_PP eq_I eq_J]; [done|done|lia|lia|done|done| |].
  - rewrite !nth_lookup, Heq. done.
  - cbn [eq_RO eq_PP eq_I eq_J eq_V eq_W] in H2. destruct (H2 eq_refl eq_refl) as (x & t0 & t1 & rest & err & Hx & Ht & He & Hiff).
    exists Υ, x, t0, t1, rest, err. do 4 (split; [assumption|]). rewrite Hiff. rewrite !excess_last by assumption.
    assert (E : x * (t0 * (last_coin N i ν * (α ^ (N + 1) - 1)) + t1 * (last_coin N j η * (α ^ (N + 1) - 1))) =
      x * (t0 * last_coin N i ν + t1 * last_coin N j η) * (α ^ (N + 1) - 1)) by ring.
    rewrite E. split; [intros H; apply zmul_eq_0 in H as [H|H]; [right; exact H|]|intros [H|H]].
    + left. replace (α ^ (N + 1)) with (α ^ (N + 1) - 1 + 1) by ring. rewrite H. ring.
    + rewrite H. ring.
    + rewrite H. ring.
Qed.

(** In particular an honest proof about the last slot of one vector and another slot of the other one is rejected, unless a
    coin or a challenge is 0. *)
Theorem C93_rejected (C : Curve) N m α (pp : poePP C) (RO : poeRO C) v w V W j u η ν Υ :
  poe_params N m α pp -> oracle_ok RO -> (2 <= N)%nat ->
  Commit (pe_PP pp) v = Ret V -> Commit (pe_PP pp) w = Ret W ->
  (j < N - 1)%nat -> v !! (N - 1)%nat = w !! j -> α ^ (N + 1) <> 1 -> ν <> 0 ->
  Equality_Prove (MkEq RO pp V W (N - 1) j) v w u η ν = Ret Υ ->
  (forall x, RO [V; W; ep_V Υ; ep_W Υ] [] (pe_Digest pp) 1%nat = Ret [x] -> x <> 0 /\
     forall t, RO [V; W; gmul x (ep_V Υ); gmul x (ep_W Υ); gmul (ep_C Υ) (gen1 C)] [(N - 1)%nat; j] (pe_Digest pp) 2%nat = Ret t -> t !! 0%nat <> Some 0) ->
  exists msg, Equality_Verify (MkEq RO pp V W (N - 1) j) Υ = Ret (Err msg).
Proof.
  intros Hpp HRO HN HV HW Hj Heq Hα Hν HP Hnz.
  destruct (C93_last_slot C N m α pp RO v w V W (N - 1) j u η ν Hpp HRO HN HV HW) as (Υ' & x & t0 & t1 & rest & err & H1 & Hx & Ht & He & Hiff); [lia|lia|exact Heq|].
  rewrite HP in H1. injection H1 as <-. destruct err as [|msg]; [|exists msg; exact He]. exfalso.
  destruct (Hnz x Hx) as [Nx Nt]. specialize (Nt _ Ht). cbn in Nt.
  destruct (proj1 Hiff eq_refl) as [H|H]; [exact (Hα H)|]. unfold last_coin in H. rewrite Nat.eqb_refl in H.
  destruct (Nat.eqb_spec j (N - 1)); [lia|]. apply zmul_eq_0 in H as [H|H]; [exact (Nx H)|].
  replace (t0 * ν + t1 * 0) with (t0 * ν) in H by ring. apply zmul_eq_0 in H as [H|H]; [|exact (Hν H)]. apply Nt. rewrite H. reflexivity.
Qed.

(** Slots that do not exist: prover and verifier panic. *)
Theorem C93_no_such_slot (C : Curve) N m α (pp : poePP C) (RO : poeRO C) v w V W i j u η ν Υ :
  poe_params N m α pp -> oracle_ok RO -> (1 <= N)%nat ->
  Commit (pe_PP pp) v = Ret V -> Commit (pe_PP pp) w = Ret W -> (N <= i)%nat \/ (N <= j)%nat ->
  Equality_Prove (MkEq RO pp V W i j) v w u η ν = Panic /\ Equality_Verify (MkEq RO pp V W i j) Υ = Panic.
Proof.
  intros (Hpp & _) HRO HN HV HW Hij. rewrite Hpp in HV, HW.
  apply commit_inv in HV, HW; [|lia..]. destruct HV as [Hv _], HW as [Hw _]. split.
  - unfold Equality_Prove. cbn [eq_I eq_J]. unfold idx. destruct Hij as [H|H].
    + rewrite (lookup_ge_None_2 v i) by lia. reflexivity.
    + destruct (v !! i); [|reflexivity]. rewrite (lookup_ge_None_2 w j) by lia. reflexivity.
  - unfold Equality_Verify. cbn [eq_RO eq_PP eq_I eq_J eq_V eq_W].
    destruct (HRO [V; W; ep_V Υ; ep_W Υ] [] (pe_Digest pp) 1%nat) as (xl & Hx & Lx). destruct xl as [|x [|]]; try (cbn in Lx; lia).
    rewrite Hx. cbn [rbind idx lookup list_lookup].
    destruct (HRO [V; W; gmul x (ep_V Υ); gmul x (ep_W Υ); gmul (ep_C Υ) (gen1 C)] [i; j] (pe_Digest pp) 2%nat) as (ts & Ht & Lt).
    destruct ts as [|t0 [|t1 rest]]; try (cbn in Lt; lia). rewrite Ht. cbn [rbind idx lookup list_lookup]. rewrite Hpp.
    assert (B : forall n, (N <= n)%nat -> idx_last (pp_G2s (NewPublicParams (C:=C) N α)) n = Panic).
    { intros n Hn. unfold idx_last, idxZ. rewrite pp_G2s_length. destruct (Z.ltb_spec (Z.of_nat N - 1 - Z.of_nat n) 0); [reflexivity|lia]. }
    destruct (le_lt_dec N i) as [H|H]; [rewrite (B i H); reflexivity|]. rewrite g2_last by exact H. cbn [rbind].
    rewrite g1v_innerprod_1. cbn [rbind]. rewrite (B j) by lia. reflexivity.
Qed.

(** ** Many pairs *)
(** Σ_k (t_{2k}·ν_k + t_{2k+1}·η_k), with the coins of last slots only; the coins of a pair are (u, η, ν). *)
Definition weighted_last_coins (N : nat) (t : list Zr) (prs : list eqPair) (coins : list (Zr * Zr * Zr)) : Zr :=
  zsum (imap (fun k pc => default 0 (t !! (2 * k)%nat) * last_coin N (pr_i (fst pc)) (snd (snd pc)) +
                          default 0 (t !! (2 * k + 1)%nat) * last_coin N (pr_j (fst pc)) (snd (fst (snd pc)))) (zip prs coins)).
Lemma weighted_last_dot N t prs coins : length t = (2 * length prs)%nat -> length coins = length prs ->
  weighted_last_coins N t prs coins =
  dot (evens_loop t) (zip_with (fun p c => last_coin N (pr_i p) (snd c)) prs coins) +
  dot (odds_loop t) (zip_with (fun p c => last_coin N (pr_j p) (snd (fst c))) prs coins).
Proof.
  unfold weighted_last_coins. revert t coins. induction prs as [|p prs IH]; intros t coins Ht Hc.
  - destruct t; [|cbn in Ht; lia]. cbn. ring.
  - destruct t as [|x [|y t]]; try (cbn in Ht; lia). destruct coins as [|c coins]; [cbn in Hc; lia|].
    cbn [evens_loop odds_loop zip_with dot imap zsum]. specialize (IH t coins ltac:(cbn in Ht; lia) ltac:(cbn in Hc; lia)).
    transitivity (x * last_coin N (pr_i p) (snd c) + y * last_coin N (pr_j p) (snd (fst c)) +
      (dot (evens_loop t) (zip_with (fun p c => last_coin N (pr_i p) (snd c)) prs coins) +
       dot (odds_loop t) (zip_with (fun p c => last_coin N (pr_j p) (snd (fst c))) prs coins))); [|ring].
    rewrite <- IH. f_equal. f_equal. apply imap_ext. intros k q _. cbn [compose].
    replace (2 * S k + 1)%nat with (S (S (2 * k + 1))) by lia. replace (2 * S k)%nat with (S (S (2 * k))) by lia. reflexivity.
Qed.

(** The verdict on the prover's own aggregated proof for any slots, whether or not the entries are equal *)
Theorem C93_aggregated (C : Curve) k N α (pp : poePP C) (RO : poeRO C) prs V W coins r1 r2 :
  poe_params N (2 ^ k) α pp -> oracle_ok RO -> (2 <= N)%nat -> length prs = (2 ^ k)%nat -> length coins = (2 ^ k)%nat ->
  Forall (fun p => (pr_i p < N)%nat /\ (pr_j p < N)%nat) prs ->
  mapM (Commit (pe_PP pp)) (pr_v <$> prs) = Ret V -> mapM (Commit (pe_PP pp)) (pr_w <$> prs) = Ret W ->
  exists p x t, Equalities_Prove (eq_statement RO pp V W prs) (pr_v <$> prs) (pr_w <$> prs) coins r1 r2 = Ret p /\
    RO (ap_Vaggr p ++ ap_Waggr p ++ V ++ W) [] (pe_Digest pp) 1%nat = Ret [x] /\
    RO (ap_Vaggr p ++ ap_Waggr p ++ V ++ W ++ [ap_U p; ap_V p]) [] (pe_Digest pp) (2 * length prs)%nat = Ret t /\
    (Forall (fun x => x <> 0) (eq_challenges pp p) ->
     exists err, Equalities_Verify (eq_statement RO pp V W prs) p = Ret err /\
       (err = nil_error <-> weighted_differences t prs * α ^ (N + 1) + x * weighted_last_coins N t prs coins * (α ^ (N + 1) - 1) = 0)).
Proof.
  intros (Hpp & HG & HH) HRO HN Hm Hc Hin HV HW. rewrite Hpp in HV, HW.
  apply mapM_commit_inv in HV, HW; [|lia..]. destruct HV as [Lv ->], HW as [Lw ->].
  rewrite Forall_fmap in Lv, Lw.
  set (its := zip_with to_item prs coins).
  assert (Ei : forall {A} (f : eqItem -> A) (g : eqPair -> A), (forall p c, f (to_item p c) = g p) -> f <$> its = g <$> prs)
    by (intros; apply zip_fmap_l; [lia|done]).
  assert (Lits : length its = (2 ^ k)%nat) by (unfold its; rewrite zip_with_length; lia).
  destruct (equalities_last N α HN (eq_statement RO pp (commitment N α <$> (pr_v <$> prs)) (commitment N α <$> (pr_w <$> prs)) prs) its k)
    with (r1 := r1) (r2 := r2) as (p & x & ts & H1 & H2 & Hx & H3 & H4 & H5); cbn [es_RO es_PP es_V es_W es_I es_J eq_statement]; [done..| | | | | |].
  - apply Forall_lookup. intros j t Ht. unfold its in Ht. rewrite lookup_zip_with in Ht.
    destruct (prs !! j) as [q|] eqn:Eq; [|done]. destruct (coins !! j); [|done]. cbn in Ht. injection Ht as <-.
    rewrite Forall_lookup in Lv, Lw, Hin. specialize (Lv _ _ Eq). specialize (Lw _ _ Eq). destruct (Hin _ _ Eq) as [Hi Hj]. cbn in Lv, Lw.
    unfold item_in, to_item. cbn. lia.
  - rewrite <- list_fmap_compose. symmetry. apply Ei. done.
  - rewrite <- list_fmap_compose. symmetry. apply Ei. done.
  - symmetry. apply Ei. done.
  - symmetry. apply Ei. done.
  - rewrite (Ei _ t_v pr_v) in H1 by done. rewrite (Ei _ t_w pr_w) in H1 by done.
    assert (Ec : (fun t => (t_u t, t_η t, t_ν t)) <$> its = coins).
    { unfold its. rewrite (zip_fmap_r _ _ id) by (try lia; intros a [[? ?] ?]; done). apply list_fmap_id. }
    rewrite Ec in H1. exists p, x, ts. split; [exact H1|]. cbn [es_RO es_PP es_V es_W eq_statement] in Hx, H3. split; [exact Hx|]. rewrite Hm. split; [exact H3|].
    intros Hnz. destruct (H5 Hnz) as (err & He & Hiff). exists err. split; [exact He|]. rewrite Hiff.
    rewrite (Ei _ (fun t => t_wJ t - t_vI t) difference).
    2:{ intros q c. unfold t_wJ, t_vI, difference. cbn. rewrite !nth_lookup. done. }
    rewrite weighted_dot by lia. rewrite weighted_last_dot by lia.
    assert (EI : dot (evens_loop ts) ((fun t => t_ν t * excess N α (t_i t)) <$> its) =
      dot (evens_loop ts) (zip_with (fun p c => last_coin N (pr_i p) (snd c)) prs coins) * (α ^ (N + 1) - 1)).
    { unfold its. clear -Hin. revert coins. generalize (evens_loop ts). induction Hin as [|q prs [Hi Hj] _ IH]; intros te [|c coins]; try (cbn; rewrite !dot_nil_r; ring).
      destruct te as [|t te]; [cbn; ring|]. cbn [zip_with fmap list_fmap dot]. change (list_fmap ?X ?Y ?F ?l) with (F <$> l). rewrite IH. cbn [to_item t_ν t_i]. rewrite excess_last by exact Hi. ring. }
    assert (EJ : dot (odds_loop ts) ((fun t => t_η t * excess N α (t_j t)) <$> its) =
      dot (odds_loop ts) (zip_with (fun p c => last_coin N (pr_j p) (snd (fst c))) prs coins) * (α ^ (N + 1) - 1)).
    { unfold its. clear -Hin. revert coins. generalize (odds_loop ts). induction Hin as [|q prs [Hi Hj] _ IH]; intros te [|c coins]; try (cbn; rewrite !dot_nil_r; ring).
      destruct te as [|t te]; [cbn; ring|]. cbn [zip_with fmap list_fmap dot]. change (list_fmap ?X ?Y ?F ?l) with (F <$> l). rewrite IH. cbn [to_item t_η t_j]. rewrite excess_last by exact Hj. ring. }
    rewrite EI, EJ. match goal with |- g1 ?a = _ <-> ?b = _ => assert (a = b) as -> by ring end. unfold g1. split; intros H.
    + apply gmul_eq_0 in H as [H|H]; [exact H|]. destruct (gen1_neq_0 H).
    + rewrite H. apply gmul_0.
Qed.

Local Lemma RO_nonzero (C : Curve) (Hh : forall key m, fe (hmac C key m) <> 0) (gs : list (G1 C)) is d n l : poe_RO gs is d n = Ret l -> Forall (fun x => x <> 0) l.
Proof. rewrite poe_RO_spec. intros [= <-]. apply Forall_fmap, Forall_forall. intros i _. apply Hh. Qed.
(** The entries 40 of both vectors are equal, but one of them is in the last slot: the honest proof is rejected. *)
Example C93_nonvacuous : exists (pp : poePP toy) V W Υ msg, poe_NewPublicParams 4 1 (zr 3) = Ret pp /\
  let v := [zr 10; zr 20; zr 30; zr 40] in let w := [zr 40; zr 7; zr 8; zr 9] in
  Commit (pe_PP pp) v = Ret V /\ Commit (pe_PP pp) w = Ret W /\
  Equality_Prove (MkEq poe_RO pp V W 3 0) v w (zr 5) (zr 6) (zr 7) = Ret Υ /\
  Equality_Verify (MkEq poe_RO pp V W 3 0) Υ = Ret (Err msg).
Proof.
  destruct (C28_generated_params toy 4 1 (zr 3)) as (pp & Hpp & Hwf). pose proof Hwf as (Hw & _).
  set (v := [zr 10; zr 20; zr 30; zr 40]). set (w := [zr 40; zr 7; zr 8; zr 9]).
  assert (HV : Commit (pe_PP pp) v = Ret (commitment 4 (zr 3) v)) by (rewrite Hw; apply commit_spec; [done|lia]).
  assert (HW : Commit (pe_PP pp) w = Ret (commitment 4 (zr 3) w)) by (rewrite Hw; apply commit_spec; [done|lia]).
  destruct (C93_last_slot toy 4 1 (zr 3) pp poe_RO v w _ _ 3 0 (zr 5) (zr 6) (zr 7) Hwf (C28_package_oracle toy) ltac:(lia) HV HW) as (Υ & x & t0 & t1 & rest & err & H1 & Hx & Ht & _); [lia|lia|done|].
  destruct (C93_rejected toy 4 1 (zr 3) pp poe_RO v w _ _ 0 (zr 5) (zr 6) (zr 7) Υ Hwf (C28_package_oracle toy) ltac:(lia) HV HW) as [msg Hm]; [lia|done| | |exact H1| |].
  - intros E. apply (f_equal zv) in E. vm_compute in E. discriminate E.
  - intros E. apply (f_equal zv) in E. vm_compute in E. discriminate E.
  - intros y Hy. apply (RO_nonzero toy toy_hmac_neq_0) in Hy. split; [exact (Forall_inv Hy)|].
    intros t Ht2 E. apply (RO_nonzero toy toy_hmac_neq_0) in Ht2. rewrite Forall_lookup in Ht2. exact (Ht2 _ _ E eq_refl).
  - exists pp, (commitment 4 (zr 3) v), (commitment 4 (zr 3) w), Υ, msg. split; [exact Hpp|]. cbv zeta. split_and!; [done..|]. exact Hm.
Qed.
(** Two pairs, the second about the last slots *)
Example C93_aggregated_nonvacuous : exists (pp : poePP toy) V W p,
  let prs := [MkPair [zr 1; zr 2; zr 3; zr 4] 0 [zr 7; zr 1; zr 6; zr 5] 1; MkPair [zr 1; zr 2; zr 3; zr 4] 3 [zr 7; zr 1; zr 6; zr 4] 3] in
  Forall entries_equal prs /\ mapM (Commit (pe_PP pp)) (pr_v <$> prs) = Ret V /\ mapM (Commit (pe_PP pp)) (pr_w <$> prs) = Ret W /\
  Equalities_Prove (eq_statement poe_RO pp V W prs) (pr_v <$> prs) (pr_w <$> prs) toy_eq_coins (zr 8) (zr 9) = Ret p.
Proof.
  destruct (C28_generated_params toy 4 2 (zr 3)) as (pp & Hpp & Hwf). pose proof Hwf as (Hw & _).
  set (prs := [_; _]). assert (Forall (fun v => length v = 4%nat) (pr_v <$> prs) /\ Forall (fun v => length v = 4%nat) (pr_w <$> prs)) as [L1 L2] by (split; repeat constructor).
  pose proof (toy_mapM_commit 4 (zr 3) _ ltac:(lia) L1) as HV. pose proof (toy_mapM_commit 4 (zr 3) _ ltac:(lia) L2) as HW. rewrite <- Hw in HV, HW.
  destruct (C93_aggregated toy 1 4 (zr 3) pp poe_RO prs _ _ toy_eq_coins (zr 8) (zr 9) Hwf (C28_package_oracle toy) ltac:(lia) eq_refl eq_refl ltac:(repeat constructor) HV HW) as (p & x & t & H1 & _).
  eexists pp, _, _, p. cbv zeta. fold prs. split; [repeat constructor|]. split; [exact HV|]. split; [exact HW|]. exact H1.
Qed.

Print Assumptions C93_last_slot.
Print Assumptions C93_rejected.
Print Assumptions C93_no_such_slot.
Print Assumptions C93_aggregated.
