(** Properties C28–C30: package poe (poe/poe.go). *)
From Verif Require Import Poe_facts Prop_sum Toy.
Local Open Scope Zr_scope.

(** Parameters for vectors of length N and m pairs, as made by poe.NewPublicParams(N, m): the commitment
    key has trapdoor α; G, H have length m and are arbitrary, like F and the digest. *)
Definition poe_params {C : Curve} (N m : nat) (α : Zr) (pp : poePP C) : Prop :=
  pe_PP pp = NewPublicParams N α /\ length (pe_G pp) = m /\ length (pe_H pp) = m.
Theorem C28_generated_params : forall (C : Curve) N m α, exists pp : poePP C,
  poe_NewPublicParams N m α = Ret pp /\ poe_params N m α pp.
Proof.
  intros C N m α. eexists. split; [reflexivity|]. unfold poe_params, poe_SetupDigest. cbn [pe_PP pe_G pe_H].
  rewrite !rand_gen_vec_length. done.
Qed.
(** The package's own oracle answers every query with the requested number of scalars; that is all that
    is assumed of the oracle below. *)
Theorem C28_package_oracle : forall C : Curve, oracle_ok (C:=C) poe_RO.
Proof. intros C. apply poe_RO_ok. Qed.

(** ** C28 *)
Lemma commit_inv {C : Curve} N α v (V : G1 C) : (1 <= N)%nat -> Commit (NewPublicParams N α) v = Ret V ->
  length v = N /\ V = commitment N α v.
Proof.
  intros HN H. destruct (decide (length v = N)) as [HL|HL].
  - split; [done|]. rewrite commit_spec in H by done. congruence.
  - rewrite commit_panic in H by done. done.
Qed.
Theorem C28_equality_complete : forall (C : Curve) N m α (pp : poePP C) (RO : poeRO C) v w V W i j u η ν,
  poe_params N m α pp -> oracle_ok RO ->
  Commit (pe_PP pp) v = Ret V -> Commit (pe_PP pp) w = Ret W ->
  (i < N - 1)%nat -> (j < N - 1)%nat -> v !! i = w !! j ->
  exists Υ, Equality_Prove (MkEq RO pp V W i j) v w u η ν = Ret Υ /\
    Equality_Verify (MkEq RO pp V W i j) Υ = Ret nil_error.
Proof.
  intros C N m α pp RO v w V W i j u η ν (Hpp & _) HRO HV HW Hi Hj Heq. rewrite Hpp in HV, HW.
  apply commit_inv in HV, HW; [|lia..]. destruct HV as [Hv ->], HW as [Hw ->].
  destruct (equality_prove_spec N α (MkEq RO pp (commitment N α v) (commitment N α w) i j)) with (v := v) (w := w) (u := u) (η := η) (ν := ν)
    as (Υ & H1 & H2); cbn [eq_RO eq_PP eq_I eq_J]; [done|done|lia|lia|lia|lia|done|done| |].
  - rewrite !nth_lookup, Heq. done.
  - exists Υ. split; [exact H1|]. apply H2; done.
Qed.
Theorem C28_unequal_panics : forall (C : Curve) (e : Equality C) v w u η ν,
  v !! eq_I e <> w !! eq_J e -> Equality_Prove e v w u η ν = Panic.
Proof.
  intros C e v w u η ν Hne. unfold Equality_Prove, idx.
  destruct (v !! eq_I e) as [x|]; [|done]. destruct (w !! eq_J e) as [y|]; [|done]. cbn [rbind].
  destruct (zeqb x y) eqn:E; [|done]. apply zeqb_eq in E. congruence.
Qed.
Print Assumptions C28_generated_params.
Print Assumptions C28_package_oracle.
Print Assumptions C28_equality_complete.
Print Assumptions C28_unequal_panics.
Example C28_nonvacuous : exists (pp : poePP toy) V W Υ, poe_NewPublicParams 4 1 (zr 3) = Ret pp /\
  let v := [zr 10; zr 20; zr 30; zr 40] in let w := [zr 30; zr 7; zr 8; zr 9] in
  Commit (pe_PP pp) v = Ret V /\ Commit (pe_PP pp) w = Ret W /\
  Equality_Prove (MkEq poe_RO pp V W 2 0) v w (zr 5) (zr 6) (zr 7) = Ret Υ /\
  Equality_Verify (MkEq poe_RO pp V W 2 0) Υ = Ret nil_error /\
  Equality_Prove (MkEq poe_RO pp V W 1 0) v w (zr 5) (zr 6) (zr 7) = Panic.
Proof.
  destruct (C28_generated_params toy 4 1 (zr 3)) as (pp & Hpp & Hwf). pose proof Hwf as (Hw & _).
  set (v := [zr 10; zr 20; zr 30; zr 40]). set (w := [zr 30; zr 7; zr 8; zr 9]).
  assert (HV : Commit (pe_PP pp) v = Ret (commitment 4 (zr 3) v)) by (rewrite Hw; apply commit_spec; [done|lia]).
  assert (HW : Commit (pe_PP pp) w = Ret (commitment 4 (zr 3) w)) by (rewrite Hw; apply commit_spec; [done|lia]).
  destruct (C28_equality_complete toy 4 1 (zr 3) pp poe_RO v w _ _ 2 0 (zr 5) (zr 6) (zr 7) Hwf (C28_package_oracle toy) HV HW) as (Υ & H1 & H2); [lia|lia|done|].
  exists pp, (commitment 4 (zr 3) v), (commitment 4 (zr 3) w), Υ. split; [exact Hpp|]. cbv zeta. split_and!; [done..|].
  apply C28_unequal_panics. cbn. intros E. apply (f_equal (fun o => zv (default 0 o))) in E. vm_compute in E. done.
Qed.

(** ** C29 and C30 *)
(** One pair: entry pr_i of pr_v is to be shown equal to entry pr_j of pr_w. *)
Record eqPair : Type := MkPair { pr_v : list Zr; pr_i : nat; pr_w : list Zr; pr_j : nat }.
Definition entries_equal (p : eqPair) : Prop := pr_v p !! pr_i p = pr_w p !! pr_j p.
Definition pair_inbounds (N : nat) (p : eqPair) : Prop := (pr_i p < N - 1)%nat /\ (pr_j p < N - 1)%nat.
(** The statement about the commitments V, W of the vectors of the pairs *)
Definition eq_statement {C : Curve} (RO : poeRO C) (pp : poePP C) (V W : list (G1 C)) (prs : list eqPair) : Equalities C :=
  MkEqs RO pp V W (pr_i <$> prs) (pr_j <$> prs).
(** The challenges of the inner-product argument as replayed by Verify (C12) *)
Definition eq_challenges {C : Curve} (pp : poePP C) (p : AggProof C) : list Zr :=
  chal (inst_digest (poe_ipa pp)) (ipp_LRs (ap_IPP p)).
(** w_k[J_k] - v_k[I_k] *)
Definition difference (p : eqPair) : Zr := default 0 (pr_w p !! pr_j p) - default 0 (pr_v p !! pr_i p).
(** Σ_k t_{2k+1}·(w_k[J_k] - v_k[I_k]) *)
Definition weighted_differences (t : list Zr) (prs : list eqPair) : Zr :=
  zsum (imap (fun k p => default 0 (t !! (2 * k + 1)%nat) * difference p) prs).

Lemma odds_lookup (t : list Zr) k : length (odds_loop t) = (length t / 2)%nat -> odds_loop t !! k = t !! (2 * k + 1)%nat \/ (length t <= 2 * k + 1)%nat.
Proof.
  intros _. revert t. induction k as [|k IH]; intros [|x [|y t]]; cbn [odds_loop]; try (right; cbn; lia); [left; done|].
  destruct (IH t) as [H|H]; [left|right; cbn; lia].
  replace (2 * S k + 1)%nat with (S (S (2 * k + 1))) by lia. exact H.
Qed.
Lemma weighted_dot t prs : length t = (2 * length prs)%nat -> weighted_differences t prs = dot (odds_loop t) (difference <$> prs).
Proof.
  unfold weighted_differences. revert t. induction prs as [|p prs IH]; intros [|x [|y t]] H; try (cbn in H; lia); [done|].
  cbn [odds_loop fmap list_fmap dot imap zsum]. f_equal. rewrite <- (IH t) by (cbn in H; lia). f_equal.
  apply imap_ext. intros k q _. cbn [compose]. replace (2 * S k + 1)%nat with (S (S (2 * k + 1))) by lia. done.
Qed.
Lemma mapM_commit_inv {C : Curve} N α vs (Vs : list (G1 C)) : (1 <= N)%nat ->
  mapM (Commit (NewPublicParams N α)) vs = Ret Vs -> Forall (fun v => length v = N) vs /\ Vs = commitment N α <$> vs.
Proof.
  intros HN. revert Vs. induction vs as [|v vs IH]; intros Vs H; cbn [mapM] in H; [split; [constructor|injection H as <-; done]|].
  apply rbind_inv in H. destruct H as (V & HV & H). apply rbind_inv in H. destruct H as (Vs' & HVs & H). injection H as <-.
  apply commit_inv in HV; [|done]. destruct HV as [HL ->]. destruct (IH Vs' HVs) as [H1 ->]. split; [constructor; done|done].
Qed.
Definition to_item (p : eqPair) (c : Zr * Zr * Zr) : eqItem :=
  MkItem (pr_v p) (pr_i p) (pr_w p) (pr_j p) (fst (fst c)) (snd (fst c)) (snd c).
Lemma zip_fmap_l {A B D E} (f : A -> B -> D) (g : D -> E) (h : A -> E) l k : length l = length k ->
  (forall a b, g (f a b) = h a) -> g <$> zip_with f l k = h <$> l.
Proof.
  intros HL H. revert k HL. induction l as [|a l IH]; intros [|b k] HL; try done. cbn [zip_with fmap list_fmap]. f_equal; [apply H|].
  apply IH. cbn in HL; lia.
Qed.
Lemma zip_fmap_r {A B D E} (f : A -> B -> D) (g : D -> E) (h : B -> E) l k : length l = length k ->
  (forall a b, g (f a b) = h b) -> g <$> zip_with f l k = h <$> k.
Proof.
  intros HL H. revert k HL. induction l as [|a l IH]; intros [|b k] HL; try done. cbn [zip_with fmap list_fmap]. f_equal; [apply H|].
  apply IH. cbn in HL; lia.
Qed.

(** The verdict on the prover's own proof, whether or not the entries are equal. *)
Lemma eqs_verdict (C : Curve) k N α (pp : poePP C) (RO : poeRO C) prs V W coins r1 r2 :
  poe_params N (2 ^ k) α pp -> oracle_ok RO -> length prs = (2 ^ k)%nat -> length coins = (2 ^ k)%nat ->
  Forall (pair_inbounds N) prs ->
  mapM (Commit (pe_PP pp)) (pr_v <$> prs) = Ret V -> mapM (Commit (pe_PP pp)) (pr_w <$> prs) = Ret W ->
  exists p ts, Equalities_Prove (eq_statement RO pp V W prs) (pr_v <$> prs) (pr_w <$> prs) coins r1 r2 = Ret p /\
    RO (ap_Vaggr p ++ ap_Waggr p ++ V ++ W ++ [ap_U p; ap_V p]) [] (pe_Digest pp) (2 * length prs)%nat = Ret ts /\
    length ts = (2 * length prs)%nat /\
    (Forall (fun x => x <> 0) (eq_challenges pp p) ->
     exists err, Equalities_Verify (eq_statement RO pp V W prs) p = Ret err /\
       (err = nil_error <-> g1 (C:=C) (weighted_differences ts prs * α ^ (N + 1)) = gzero)).
Proof.
  intros (Hpp & HG & HH) HRO Hm Hc Hin HV HW. rewrite Hpp in HV, HW.
  assert (HN : (1 <= N)%nat).
  { destruct prs as [|p prs]; [cbn in Hm; pose proof (Nat.pow_nonzero 2 k); lia|]. apply Forall_cons in Hin. destruct Hin as [[H _] _]. lia. }
  apply mapM_commit_inv in HV, HW; [|done..]. destruct HV as [Lv ->], HW as [Lw ->].
  rewrite Forall_fmap in Lv, Lw.
  set (its := zip_with to_item prs coins).
  assert (Ei : forall {A} (f : eqItem -> A) (g : eqPair -> A), (forall p c, f (to_item p c) = g p) -> f <$> its = g <$> prs)
    by (intros; apply zip_fmap_l; [lia|done]).
  assert (Lits : length its = (2 ^ k)%nat) by (unfold its; rewrite zip_with_length; lia).
  destruct (equalities_honest N α (eq_statement RO pp (commitment N α <$> (pr_v <$> prs)) (commitment N α <$> (pr_w <$> prs)) prs) its k)
    with (r1 := r1) (r2 := r2) as (p & ts & H1 & H2 & H3 & H4 & H5); cbn [es_RO es_PP es_V es_W es_I es_J eq_statement]; [done..| | | | | |].
  - apply Forall_lookup. intros j t Ht. unfold its in Ht. rewrite lookup_zip_with in Ht.
    destruct (prs !! j) as [q|] eqn:Eq; [|done]. destruct (coins !! j); [|done]. cbn in Ht. injection Ht as <-.
    rewrite Forall_lookup in Lv, Lw, Hin. specialize (Lv _ _ Eq). specialize (Lw _ _ Eq). destruct (Hin _ _ Eq) as [Hi Hj]. cbn in Lv, Lw.
    unfold item_ok, to_item. cbn. lia.
  - rewrite <- list_fmap_compose. symmetry. apply Ei. done.
  - rewrite <- list_fmap_compose. symmetry. apply Ei. done.
  - symmetry. apply Ei. done.
  - symmetry. apply Ei. done.
  - rewrite (Ei _ t_v pr_v) in H1 by done. rewrite (Ei _ t_w pr_w) in H1 by done.
    assert (Ec : (fun t => (t_u t, t_η t, t_ν t)) <$> its = coins).
    { unfold its. rewrite (zip_fmap_r _ _ id) by (try lia; intros a [[? ?] ?]; done). apply list_fmap_id. }
    rewrite Ec in H1. exists p, ts. split; [exact H1|]. cbn [es_RO es_PP es_V es_W eq_statement] in H3. rewrite Hm. split; [exact H3|]. split; [exact H4|].
    intros Hnz. destruct (H5 Hnz) as (err & He & Hiff). exists err. split; [exact He|]. rewrite Hiff.
    rewrite (Ei _ (fun t => t_wJ t - t_vI t) difference).
    2:{ intros q c. unfold t_wJ, t_vI, difference. cbn. rewrite !nth_lookup. done. }
    rewrite weighted_dot by lia. done.
Qed.

Theorem C29_equalities_complete : forall (C : Curve) k N α (pp : poePP C) (RO : poeRO C) prs V W coins r1 r2,
  poe_params N (2 ^ k) α pp -> oracle_ok RO -> length prs = (2 ^ k)%nat -> length coins = (2 ^ k)%nat ->
  Forall (pair_inbounds N) prs -> Forall entries_equal prs ->
  mapM (Commit (pe_PP pp)) (pr_v <$> prs) = Ret V -> mapM (Commit (pe_PP pp)) (pr_w <$> prs) = Ret W ->
  exists p, Equalities_Prove (eq_statement RO pp V W prs) (pr_v <$> prs) (pr_w <$> prs) coins r1 r2 = Ret p /\
    (Forall (fun x => x <> 0) (eq_challenges pp p) -> Equalities_Verify (eq_statement RO pp V W prs) p = Ret nil_error).
Proof.
  intros C k N α pp RO prs V W coins r1 r2 Hpp HRO Hm Hc Hin Heq HV HW.
  destruct (eqs_verdict C k N α pp RO prs V W coins r1 r2) as (p & ts & Hp & _ & Lts & H); [done..|].
  exists p. split; [done|]. intros Hnz. destruct (H Hnz) as (err & He & Hiff). rewrite He. f_equal. apply Hiff.
  assert (E : weighted_differences ts prs = 0).
  { assert (G : forall f : nat -> Zr, zsum (imap (fun k p => f k * difference p) prs) = 0); [|apply (G (fun k => default 0 (ts !! (2 * k + 1)%nat)))].
    clear -Heq. induction Heq as [|q prs Hq _ IH]; intros f; [done|]. cbn [imap zsum].
    transitivity (f 0%nat * difference q + 0); [f_equal; apply (IH (fun k => f (S k)))|]. unfold difference. rewrite Hq. ring. }
  rewrite E, zmul_0_l. apply gmul_0.
Qed.

(** Equal or not: the verdict is decided by the weighted sum of the differences, the weights t being the
    oracle's answer on the proof's first elements. *)
Theorem C30_unequal_entries : forall (C : Curve) k N α (pp : poePP C) (RO : poeRO C) prs V W coins r1 r2,
  α <> 0 -> poe_params N (2 ^ k) α pp -> oracle_ok RO -> length prs = (2 ^ k)%nat -> length coins = (2 ^ k)%nat ->
  Forall (pair_inbounds N) prs ->
  mapM (Commit (pe_PP pp)) (pr_v <$> prs) = Ret V -> mapM (Commit (pe_PP pp)) (pr_w <$> prs) = Ret W ->
  exists p t, Equalities_Prove (eq_statement RO pp V W prs) (pr_v <$> prs) (pr_w <$> prs) coins r1 r2 = Ret p /\
    RO (ap_Vaggr p ++ ap_Waggr p ++ V ++ W ++ [ap_U p; ap_V p]) [] (pe_Digest pp) (2 * length prs)%nat = Ret t /\
    (Forall (fun x => x <> 0) (eq_challenges pp p) ->
      (weighted_differences t prs = 0 -> Equalities_Verify (eq_statement RO pp V W prs) p = Ret nil_error) /\
      (weighted_differences t prs <> 0 -> exists s, Equalities_Verify (eq_statement RO pp V W prs) p = Ret (Err s))).
Proof.
  intros C k N α pp RO prs V W coins r1 r2 Hα Hpp HRO Hm Hc Hin HV HW.
  destruct (eqs_verdict C k N α pp RO prs V W coins r1 r2) as (p & ts & Hp & Ht & Lts & H); [done..|].
  exists p, ts. split; [done|]. split; [done|]. intros Hnz. destruct (H Hnz) as (err & He & Hiff). rewrite He. split.
  - intros E. f_equal. apply Hiff. rewrite E, zmul_0_l. apply gmul_0.
  - intros Hne. destruct err as [|s]; [|eauto]. exfalso. destruct Hiff as [Hiff _]. specialize (Hiff eq_refl).
    unfold g1 in Hiff. apply gmul_eq_0 in Hiff. destruct Hiff as [E|E].
    + apply zmul_eq_0 in E. destruct E as [E|E]; [done|]. apply (zpow_neq_0 α (N + 1)) in Hα. done.
    + apply gen1_neq_0 in E. done.
Qed.
Print Assumptions C29_equalities_complete.
Print Assumptions C30_unequal_entries.

Lemma toy_mapM_commit N α vs : (1 <= N)%nat -> Forall (fun v => length v = N) vs ->
  mapM (Commit (NewPublicParams (C:=toy) N α)) vs = Ret (commitment N α <$> vs).
Proof. intros HN H. apply mapM_ret. intros v Hv. apply commit_spec; [|done]. rewrite Forall_forall in H. apply H. done. Qed.
Definition toy_pairs (x : Zr) : list eqPair :=
  [MkPair [zr 10; zr 20; zr 30] 1 [x; zr 2; zr 3] 0; MkPair [zr 4; zr 5; zr 6] 0 [zr 7; zr 4; zr 9] 1].
Definition toy_eq_coins : list (Zr * Zr * Zr) := [(zr 1, zr 2, zr 3); (zr 4, zr 5, zr 6)].
Example C29_nonvacuous : exists (pp : poePP toy) V W p, poe_NewPublicParams 3 2 (zr 3) = Ret pp /\
  let prs := toy_pairs (zr 20) in
  mapM (Commit (pe_PP pp)) (pr_v <$> prs) = Ret V /\ mapM (Commit (pe_PP pp)) (pr_w <$> prs) = Ret W /\
  Equalities_Prove (eq_statement poe_RO pp V W prs) (pr_v <$> prs) (pr_w <$> prs) toy_eq_coins (zr 8) (zr 9) = Ret p /\
  Equalities_Verify (eq_statement poe_RO pp V W prs) p = Ret nil_error.
Proof.
  destruct (C28_generated_params toy 3 2 (zr 3)) as (pp & Hpp & Hwf). pose proof Hwf as (Hw & _). set (prs := toy_pairs (zr 20)).
  assert (HV : mapM (Commit (pe_PP pp)) (pr_v <$> prs) = Ret (commitment 3 (zr 3) <$> (pr_v <$> prs)))
    by (rewrite Hw; apply toy_mapM_commit; [lia|repeat constructor]).
  assert (HW : mapM (Commit (pe_PP pp)) (pr_w <$> prs) = Ret (commitment 3 (zr 3) <$> (pr_w <$> prs)))
    by (rewrite Hw; apply toy_mapM_commit; [lia|repeat constructor]).
  destruct (C29_equalities_complete toy 1 3 (zr 3) pp poe_RO prs (commitment 3 (zr 3) <$> (pr_v <$> prs)) (commitment 3 (zr 3) <$> (pr_w <$> prs)) toy_eq_coins (zr 8) (zr 9) Hwf (C28_package_oracle toy)) as (p & Hp & Hv); [| | | |exact HV|exact HW|].
  - done.
  - done.
  - unfold prs, toy_pairs, pair_inbounds. repeat constructor; cbn; lia.
  - unfold prs, toy_pairs, entries_equal. repeat constructor.
  - exists pp. do 2 eexists. exists p. split; [exact Hpp|]. cbv zeta. split; [exact HV|]. split; [exact HW|]. split; [exact Hp|]. apply Hv. apply toy_chal.
Qed.
(** One pair of different entries: the proof is rejected. *)
Lemma toy_hmac_neq_0 key m : fe (hmac toy key m) <> 0.
Proof. apply toy_challenge_neq_0. Qed.
Example C30_nonvacuous : exists (pp : poePP toy) V W p s, poe_NewPublicParams 3 2 (zr 3) = Ret pp /\
  let prs := toy_pairs (zr 21) in
  mapM (Commit (pe_PP pp)) (pr_v <$> prs) = Ret V /\ mapM (Commit (pe_PP pp)) (pr_w <$> prs) = Ret W /\
  Equalities_Prove (eq_statement poe_RO pp V W prs) (pr_v <$> prs) (pr_w <$> prs) toy_eq_coins (zr 8) (zr 9) = Ret p /\
  Equalities_Verify (eq_statement poe_RO pp V W prs) p = Ret (Err s).
Proof.
  destruct (C28_generated_params toy 3 2 (zr 3)) as (pp & Hpp & Hwf). pose proof Hwf as (Hw & _). set (prs := toy_pairs (zr 21)).
  assert (HV : mapM (Commit (pe_PP pp)) (pr_v <$> prs) = Ret (commitment 3 (zr 3) <$> (pr_v <$> prs)))
    by (rewrite Hw; apply toy_mapM_commit; [lia|repeat constructor]).
  assert (HW : mapM (Commit (pe_PP pp)) (pr_w <$> prs) = Ret (commitment 3 (zr 3) <$> (pr_w <$> prs)))
    by (rewrite Hw; apply toy_mapM_commit; [lia|repeat constructor]).
  assert (H3 : zr 3 <> 0) by (intros E; apply (f_equal zv) in E; vm_compute in E; done).
  destruct (C30_unequal_entries toy 1 3 (zr 3) pp poe_RO prs (commitment 3 (zr 3) <$> (pr_v <$> prs)) (commitment 3 (zr 3) <$> (pr_w <$> prs)) toy_eq_coins (zr 8) (zr 9) H3 Hwf (C28_package_oracle toy)) as (p & t & Hp & Ht & Hv); [| | |exact HV|exact HW|].
  - done.
  - done.
  - unfold prs, toy_pairs, pair_inbounds. repeat constructor; cbn; lia.
  - destruct (Hv (toy_chal _ _)) as [_ Hrej]. destruct Hrej as (s & Hs).
    + rewrite poe_RO_spec in Ht.
      set (K := compressParameters _ _ _) in Ht. assert (HF : forall i : nat, (fun i => fe (hmac toy K (be_bytes 2 (Z.of_nat i)))) i <> 0) by (intros; apply toy_hmac_neq_0). revert Ht HF.
      generalize (fun i : nat => fe (hmac toy K (be_bytes 2 (Z.of_nat i)))). intros F Ht HF.
      change (2 * length prs)%nat with 4%nat in Ht. cbn [seq fmap list_fmap] in Ht. injection Ht as <-.
      change (weighted_differences _ _) with (F 1%nat * (zr (20 + 1) - zr 20) + (F 3%nat * (zr 4 - zr 4) + 0)).
      rewrite zr_add. change (zr 1) with 1. intros E. apply (HF 1%nat). rewrite <- E. ring.
    + exists pp. do 2 eexists. exists p, s. split; [exact Hpp|]. cbv zeta. split; [exact HV|]. split; [exact HW|]. split; [exact Hp|]. exact Hs.
Qed.
