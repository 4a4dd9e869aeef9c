(** The vertices along a path of a liability set, and the arguments about them. *)
From Verif Require Export Prop_accept Prop_set.
From Verif Require Import Prop_range Prop_sum Prop_poe Prop_pp Poe_facts Pol_run.
Local Open Scope Zr_scope.

Lemma total_sub F h (M : path -> option Z) q : (forall p z, M p = Some z -> 0 <= z)%Z -> Forall (fun i => i < F)%nat q ->
  (total F h (fun p => M (q ++ p)) <= total F (length q + h) M)%Z.
Proof.
  revert M. induction q as [|i q IH]; intros M HM Hq; [apply Z.le_refl|]. apply Forall_cons in Hq as [Hi Hq]. cbn [length Nat.add]. rewrite total_S.
  etransitivity; [apply (IH (fun p => M (i :: p))); [intros p z; apply HM|done]|].
  apply (sumZ_ge_elem (fun i => total F (length q + h) (fun p => M (i :: p)))); [|apply elem_of_seq; lia]. intros j _. apply total_nonneg. intros p z. apply HM.
Qed.
Lemma zr_sumZ {A} (f : A -> Z) l : zr (sumZ f l) = zsum ((fun a => zr (f a)) <$> l).
Proof. induction l as [|a l IH]; [done|]. cbn [sumZ foldr]. rewrite fmap_cons. change (foldr _ 0%Z l) with (sumZ f l). rewrite zr_add, IH. done. Qed.
Lemma fmap_zip_l {A B D} (f : A -> D) (l : list A) (k : list B) : (length l <= length k)%nat -> (fun x => f (fst x)) <$> zip l k = f <$> l.
Proof. intros H. rewrite <- (fst_zip l k) at 2 by done. rewrite <- list_fmap_compose. done. Qed.
Lemma fmap_zip_r {A B D} (f : B -> D) (l : list A) (k : list B) : (length k <= length l)%nat -> (fun x => f (snd x)) <$> zip l k = f <$> k.
Proof. intros H. rewrite <- (snd_zip l k) at 2 by done. rewrite <- list_fmap_compose. done. Qed.

Lemma mapM_ext {A B} (f g : A -> res B) l : (forall a, f a = g a) -> mapM f l = mapM g l.
Proof. intros H. induction l as [|a l IH]; [done|]. cbn [mapM]. rewrite H, IH. done. Qed.
Lemma zeros_len m : length (zeros m) = m. Proof. apply replicate_length. Qed.
Lemma elem_take {A} m (l : list A) x : x ∈ take m l -> x ∈ l.
Proof. rewrite <- (take_drop m l) at 2. rewrite elem_of_app. auto. Qed.
Lemma elem_drop {A} m (l : list A) x : x ∈ drop m l -> x ∈ l.
Proof. rewrite <- (take_drop m l) at 2. rewrite elem_of_app. auto. Qed.

Section Chain.
  Context {C : Curve}.
  Notation nonzero := (Forall (fun x : Zr => x <> 0)).

  (** A vertex whose first commitment is to its values, its sum and its blinding factor, with a correct sum *)
  Definition vertex_ok (F : nat) (α : Zr) (w : Vertex C) : Prop :=
    v_V w = commitment (F + 2) α (values_vec F w) /\ sums_up (Vertex_Values w (F + 1)).
  Definition ranged (F : nat) (w : Vertex C) : Prop := Forall Prop_range.in_range (Vertex_Values w (F + 1)).
  (** Entry p[j] of vertex j is the sum of vertex j + 1 *)
  Definition linked (F : nat) (p : path) (ws : list (Vertex C)) : Prop :=
    forall j w u i, ws !! j = Some w -> ws !! S j = Some u -> p !! j = Some i -> values_vec F w !! i = Some (v_sum u).

  Section Parts.
    Variable (F : nat) (α : Zr) (n k : nat) (pp : PolPP C).
    Hypothesis Hp : params_ok F α n k pp.
    Notation ppF := (NewPublicParams (C:=C) (F + 2) α).
    Notation vertex_ok := (vertex_ok F α).

    Lemma pp_fanout : ls_fanout pp = F.
    Proof.
      destruct Hp as (E & Hk & _). apply (ls_fanout_eq F α); [by apply (params_ok_tree _ _ n k)|].
      assert (2 ^ Z.of_nat k <= 2 ^ 15)%Z by (apply Z.pow_le_mono_r; lia). pose proof (pow2_nat_Z k). change (2 ^ 15)%Z with 32768%Z in *. lia.
    Qed.
    Lemma values_length (w : Vertex C) : length (Vertex_Values w (F + 1)) = (F + 1)%nat.
    Proof. unfold Vertex_Values. rewrite fmap_length, seq_length. done. Qed.
    Lemma vertex_commitment w : vertex_ok w ->
      v_V w = gadd (gmul (v_bf w) (rp_F (po_RPPP pp))) (msm (Vertex_Values w (F + 1)) (rp_Gs (po_RPPP pp))) /\
      v_V w = commit_sum (po_SAPP pp) (Vertex_Values w (F + 1)) (v_bf w).
    Proof.
      intros [HV _]. destruct (commit_range_sum F α n k pp (Vertex_Values w (F + 1)) (v_bf w) Hp (values_length w)) as [H1 H2].
      rewrite <- values_vec_split in H1. assert (E : Commit (po_PPPP pp) (values_vec F w) = Ret (v_V w)).
      { rewrite HV. destruct Hp as (_ & _ & _ & -> & _). apply commit_spec; [apply values_vec_length|lia]. }
      rewrite E in H1. injection H1 as H1. split; [done|]. unfold commit_sum. congruence.
    Qed.

    (** The range proof of a vertex *)
    Lemma range_part w co : vertex_ok w -> ranged F w -> coins_ok (2 ^ k) co ->
      exists rp, (exists ipaPP, ProveRange_unchecked (po_RPPP pp) (v_V w) (Vertex_Values w (F + 1)) (v_bf w) co = Ret (rp, ipaPP)) /\
        (nonzero (range_challenges (po_RPPP pp) rp (v_V w)) ->
         ProveRange (po_RPPP pp) (v_V w) (Vertex_Values w (F + 1)) (v_bf w) co = Ret rp /\ VerifyRange (po_RPPP pp) rp (v_V w) = Ret nil_error).
    Proof.
      intros Hw Hr Hc. destruct (vertex_commitment w Hw) as [E _]. rewrite E. pose proof Hp as (EF & _ & _ & _ & HR & _).
      apply (C21_range_complete C (po_RPPP pp) k (Vertex_Values w (F + 1)) (v_bf w) co HR Hc); [rewrite values_length; done|exact Hr].
    Qed.
    (** The sum argument about some vertices *)
    Lemma sum_part vs w r' : vs <> [] -> Forall vertex_ok vs -> length w = (2 ^ k)%nat ->
      exists p, SumArgument vs (po_SAPP pp) w r' = Ret p /\
        (nonzero (sum_challenges (po_SAPP pp) p) -> sum_VerifyAggregated p (po_SAPP pp) (v_V <$> vs) = Ret nil_error).
    Proof.
      intros Hne Hvs Hw. pose proof Hp as (EF & _ & _ & _ & _ & HS & _). unfold SumArgument. rewrite (proj1 (proj2 HS)), <- EF.
      assert (EV : v_V <$> vs = zip_with (commit_sum (po_SAPP pp)) ((fun v => Vertex_Values v (F + 1)) <$> vs) (v_bf <$> vs)).
      { clear -Hvs Hp. induction Hvs as [|v vs Hv _ IH]; [done|]. rewrite !fmap_cons. cbn [zip_with]. rewrite IH. f_equal. apply (proj2 (vertex_commitment v Hv)). }
      rewrite EV. apply (C25_aggregated_sum_complete C (po_SAPP pp) k); [done|by destruct vs| |rewrite !fmap_length; done|done].
      apply Forall_fmap. eapply Forall_impl; [exact Hvs|]. intros v [_ Hv]. cbn. split; [rewrite values_length; done|done].
    Qed.
    (** The aggregated opening of one entry of each of some vectors *)
    Definition agg_ro (cs : list (G1 C)) (i : nat) : Zr := fe (sha256 C (pp_Digest ppF ++ [(Z.of_nat i mod 256)%Z] ++ concat (enc1 C <$> cs))).
    Lemma agg_part (ds : list (list Zr)) (is : list nat) : ds <> [] -> Forall (fun d => length d = (F + 2)%nat) ds -> Forall (fun i => i < F)%nat is -> length is = length ds ->
      let cms := commitment (C:=C) (F + 2) α <$> ds in
      let πs := zip_with (fun d i => gmul (open_exp (F + 2) α i d) (gen1 C)) ds is in
      exists π, Aggregate (po_PPPP pp) cms πs RO = Ret π /\
        VerifyAggregation (po_PPPP pp) is cms π (dot (zip_with (fun d i => nth i d 0) ds is) (agg_ro cms <$> seq 0 (length ds))) RO = Ret nil_error.
    Proof.
      intros Hne Hd Hi Hl cms πs. pose proof Hp as (_ & _ & _ & -> & _).
      set (ro := fun (pp : PP C) (cs : list (G1 C)) (i : nat) => fe (sha256 C (pp_Digest pp ++ [(Z.of_nat i mod 256)%Z] ++ concat (enc1 C <$> cs)))).
      assert (Hent : Forall (fun e => length (fst e) = (F + 2)%nat /\ (snd e < F + 2)%nat) (zip ds is)).
      { rewrite Forall_forall in Hd. rewrite Forall_forall in Hi. apply Forall_forall. intros [d i] He. pose proof (elem_of_zip_l _ _ _ _ He) as H1. pose proof (elem_of_zip_r _ _ _ _ He) as H2. cbn. specialize (Hi i H2). split; [by apply Hd|lia]. }
      assert (Hzne : zip ds is <> []) by (destruct ds, is; done).
      destruct (C10_aggregated_openings_verify C (F + 2) α (zip ds is) ro ltac:(lia) Hzne Hent) as (cms' & opened & π & H1 & H2 & H3 & _ & H5).
      rewrite (mapM_ret _ (fun e => commitment (F + 2) α (fst e))) in H1.
      2: { intros e He. rewrite Forall_forall in Hent. apply commit_spec; [apply Hent; done|lia]. }
      rewrite fmap_zip_l in H1 by lia. injection H1 as <-. fold cms in H3, H5.
      rewrite (mapM_ret _ (fun e => (nth (snd e) (fst e) 0, gmul (open_exp (F + 2) α (snd e) (fst e)) (gen1 C)))) in H2.
      2: { intros e He. rewrite Forall_forall in Hent. apply open_spec; [apply Hent; done..|lia]. }
      injection H2 as <-. rewrite <- !list_fmap_compose in H3, H5.
      assert (EΠ : (snd ∘ (fun e : list Zr * nat => (nth (snd e) (fst e) 0, gmul (open_exp (F + 2) α (snd e) (fst e)) (gen1 C)))) <$> zip ds is = πs).
      { unfold πs. clear. revert is. induction ds as [|d ds IH]; intros [|i is]; try done. cbn [zip_with]. rewrite fmap_cons. f_equal. apply IH. }
      assert (EΣ : (fst ∘ (fun e : list Zr * nat => (nth (snd e) (fst e) 0, gmul (open_exp (F + 2) α (snd e) (fst e)) (gen1 C)))) <$> zip ds is = zip_with (fun d i => nth i d 0) ds is).
      { clear. revert is. induction ds as [|d ds IH]; intros [|i is]; try done. cbn [zip_with]. rewrite fmap_cons. f_equal. apply IH. }
      rewrite EΠ in H3. rewrite EΣ in H5. exists π. split.
      - rewrite <- H3. unfold Aggregate. destruct (_ =? _)%nat; [|done]. f_equal. apply mapM_ext. intros j. unfold idx. destruct (πs !! j); [|done]. cbn [rbind]. rewrite RO_spec. done.
      - rewrite snd_zip in H5 by lia. rewrite zip_with_length, Hl, Nat.min_id in H5. rewrite <- H5. unfold VerifyAggregation. f_equal. apply mapM_ext. intros j. apply RO_spec.
    Qed.
    (** The equality argument about the vertices of a path: the pairs it is about, padded to m *)
    Definition path_pairs (m : nat) (p : path) (ws : list (Vertex C)) : list eqPair :=
      ((fun t : Vertex C * Vertex C * nat => MkPair (values_vec F (fst (fst t))) (snd t) (values_vec F (snd (fst t))) F) <$>
        zip (zip (take (n - 1) ws) (take (n - 1) (drop 1 ws))) (take (n - 1) p)) ++ replicate (m - (n - 1)) (MkPair (zeros (F + 2)) 0 (zeros (F + 2)) 0).
    Definition path_V (m : nat) (zc : G1 C) (Vs : list (G1 C)) : list (G1 C) := take (n - 1) Vs ++ replicate (m - (n - 1)) zc.
    Lemma eq_params : exists j zc, poe_params (F + 2) (2 ^ j) α (po_POEPP pp) /\ pad_to_pow2 (n - 1) = Ret (2 ^ j)%nat /\ (n - 1 <= 2 ^ j)%nat /\ Commit (po_PPPP pp) (zeros (F + 2)) = Ret zc.
    Proof.
      pose proof Hp as (EF & _ & HFan & HPP & _ & _ & _ & _ & _ & _ & j & Hj & Hpoe & Hle & Hpad). exists j, (commitment (C:=C) (F + 2) α (zeros (F + 2))).
      split; [done|]. split; [done|]. split; [done|]. rewrite HPP. apply commit_spec; [apply zeros_len|lia].
    Qed.
    Lemma eq_pairs0 j zc p ws : poe_params (F + 2) (2 ^ j) α (po_POEPP pp) -> pad_to_pow2 (n - 1) = Ret (2 ^ j)%nat -> (n - 1 <= 2 ^ j)%nat -> Commit (po_PPPP pp) (zeros (F + 2)) = Ret zc ->
      length p = n -> (2 <= n)%nat -> Forall (fun i => i < F)%nat p -> length ws = n ->
      let m := (2 ^ j)%nat in let prs := path_pairs m p ws in
      let Vl := path_V m zc (v_V <$> ws) in let Wl := path_V m zc (drop 1 (v_V <$> ws)) in
      length prs = m /\ Forall (pair_inbounds (F + 2)) prs /\ (linked F p ws -> Forall entries_equal prs) /\
      (Forall vertex_ok ws -> mapM (Commit (pe_PP (po_POEPP pp))) (pr_v <$> prs) = Ret Vl /\ mapM (Commit (pe_PP (po_POEPP pp))) (pr_w <$> prs) = Ret Wl) /\
      pr_i <$> prs = take (n - 1) p ++ replicate (m - (n - 1)) 0%nat /\ pr_j <$> prs = replicate (n - 1) F ++ replicate (m - (n - 1)) 0%nat /\
      prove_equalities pp p ws = Ret (eq_statement poe_RO (po_POEPP pp) Vl Wl prs, pr_v <$> prs, pr_w <$> prs) /\
      (forall Vs, take n Vs = v_V <$> ws -> path_equalities pp zc m p Vs = eq_statement poe_RO (po_POEPP pp) Vl Wl prs).
    Proof.
      intros Hpoe Hpad Hle Hzc Hn Hn2 Hpath Hws m prs Vl Wl.
      pose proof Hp as (EF & _ & HFan & HPP & _).
      set (K := (n - 1)%nat) in *. set (zv0 := zeros (F + 2)) in *.
      assert (Ezc : zc = commitment (C:=C) (F + 2) α zv0).
      { assert (Commit (po_PPPP pp) zv0 = Ret (commitment (F + 2) α zv0)) as E by (rewrite HPP; apply commit_spec; [apply zeros_len|lia]). congruence. }
      set (T := zip (zip (take K ws) (take K (drop 1 ws))) (take K p)).
      assert (L1 : length (take K ws) = K) by (rewrite take_length; lia). assert (L2 : length (take K (drop 1 ws)) = K) by (rewrite take_length, drop_length; lia).
      assert (L3 : length (take K p) = K) by (rewrite take_length; lia).
      assert (LT : length T = K) by (unfold T; rewrite !zip_with_length; lia).
      assert (T1 : forall D (f : Vertex C -> D), (fun t : Vertex C * Vertex C * nat => f (fst (fst t))) <$> T = f <$> take K ws).
      { intros D f. unfold T. rewrite (fmap_zip_l (fun x => f (fst x))) by (rewrite zip_with_length; lia). apply fmap_zip_l. lia. }
      assert (T2 : forall D (f : Vertex C -> D), (fun t : Vertex C * Vertex C * nat => f (snd (fst t))) <$> T = f <$> take K (drop 1 ws)).
      { intros D f. unfold T. rewrite (fmap_zip_l (fun x => f (snd x))) by (rewrite zip_with_length; lia). apply fmap_zip_r. lia. }
      assert (T3 : (fun t : Vertex C * Vertex C * nat => snd t) <$> T = take K p).
      { unfold T. rewrite (fmap_zip_r (fun x => x)) by (rewrite zip_with_length; lia). apply list_fmap_id. }
      assert (Eprs : prs = ((fun t : Vertex C * Vertex C * nat => MkPair (values_vec F (fst (fst t))) (snd t) (values_vec F (snd (fst t))) F) <$> T) ++ replicate (m - K) (MkPair zv0 0 zv0 0)) by reflexivity.
      clearbody prs.
      assert (Ev : pr_v <$> prs = (values_vec F <$> take K ws) ++ replicate (m - K) zv0).
      { rewrite Eprs, fmap_app, fmap_replicate, <- list_fmap_compose. f_equal. apply (T1 _ (values_vec F)). }
      assert (Ew : pr_w <$> prs = (values_vec F <$> take K (drop 1 ws)) ++ replicate (m - K) zv0).
      { rewrite Eprs, fmap_app, fmap_replicate, <- list_fmap_compose. f_equal. apply (T2 _ (values_vec F)). }
      assert (Ei : pr_i <$> prs = take K p ++ replicate (m - K) 0%nat).
      { rewrite Eprs, fmap_app, fmap_replicate, <- list_fmap_compose. f_equal. apply T3. }
      assert (Ej : pr_j <$> prs = replicate K F ++ replicate (m - K) 0%nat).
      { rewrite Eprs, fmap_app, fmap_replicate, <- list_fmap_compose. f_equal. rewrite <- LT. clear. induction T; [done|]. rewrite fmap_cons. cbn [length replicate]. f_equal. done. }
      assert (Lprs : length prs = m) by (rewrite Eprs, app_length, fmap_length, replicate_length; lia).
      assert (Hcm : Forall vertex_ok ws -> forall l, (forall w, w ∈ l -> w ∈ ws) -> mapM (Commit (pe_PP (po_POEPP pp))) ((values_vec F <$> l) ++ replicate (m - K) zv0) = Ret ((v_V <$> l) ++ replicate (m - K) zc)).
      { intros Hok l Hl. rewrite (proj1 Hpoe). rewrite (mapM_ret _ (commitment (F + 2) α)).
        - rewrite fmap_app, fmap_replicate, <- list_fmap_compose, Ezc. do 2 f_equal. apply list_fmap_ext. intros i w Hw. cbn. symmetry. rewrite Forall_forall in Hok. apply Hok, Hl. apply elem_of_list_lookup. eauto.
        - intros x Hx. apply commit_spec; [|lia]. apply elem_of_app in Hx as [Hx|Hx]; [apply elem_of_list_fmap in Hx as (w & -> & _); apply values_vec_length|]. apply elem_of_replicate in Hx as [-> _]. apply zeros_len. }
      assert (EVl : Vl = (v_V <$> take K ws) ++ replicate (m - K) zc) by (unfold Vl, path_V; fold K; rewrite fmap_take; done).
      assert (EWl : Wl = (v_V <$> take K (drop 1 ws)) ++ replicate (m - K) zc) by (unfold Wl, path_V; fold K; rewrite fmap_take, fmap_drop; done).
      split; [exact Lprs|]. split.
      { rewrite Eprs. apply Forall_app. split.
        - apply Forall_fmap, Forall_forall. intros [[w u] i] Ht. cbn. unfold pair_inbounds. cbn [pr_i pr_j]. apply elem_of_zip_r in Ht. rewrite Forall_forall in Hpath. specialize (Hpath i (elem_take _ _ _ Ht)). lia.
        - apply Forall_replicate. unfold pair_inbounds. cbn [pr_i pr_j]. lia. }
      split.
      { intros Hlink. rewrite Eprs. apply Forall_app. split.
        - apply Forall_fmap, Forall_forall. intros [[w u] i] Ht. cbn. unfold entries_equal. cbn [pr_v pr_w pr_i pr_j]. apply elem_of_list_lookup in Ht as [l Ht]. unfold T in Ht.
          apply lookup_zip_with_Some in Ht as (wu & i' & E & Ht & Hi). injection E as <- <-. apply lookup_zip_with_Some in Ht as (w' & u' & E & Hw & Hu). injection E as <- <-.
          pose proof (lookup_lt_Some _ _ _ Hw) as HlK. rewrite L1 in HlK. rewrite lookup_take in Hw, Hu by lia. rewrite lookup_take in Hi by lia. rewrite lookup_drop in Hu. cbn [Nat.add] in Hu. rewrite values_vec_sum. apply (Hlink l); done.
        - apply Forall_replicate. done. }
      split.
      { intros Hok. split; [rewrite Ev, EVl; apply (Hcm Hok); intros w Hw; eapply elem_take; exact Hw|].
        rewrite Ew, EWl. apply (Hcm Hok). intros w Hw. apply elem_take in Hw. eapply elem_drop; exact Hw. }
      split; [exact Ei|]. split; [exact Ej|]. unfold eq_statement. rewrite Ei, Ej, Ev, Ew. split.
      - unfold prove_equalities. rewrite Hn. fold K.
        rewrite (proj2 (mapM_idx_take (fun i => idx ws i) ws 0 K (take K ws) ltac:(intros; f_equal; lia)) ltac:(split; [lia|done])). cbn [rbind].
        rewrite (proj2 (mapM_idx_take _ ws 1 K (take K (drop 1 ws)) ltac:(done)) ltac:(split; [lia|done])). cbn [rbind].
        assert (Hfan : ls_fanout pp = F) by apply pp_fanout. rewrite Hfan. change (replicate (F + 2) (IntToZr 0)) with zv0. rewrite Hzc. cbn [rbind]. rewrite Hpad. cbn [rbind]. fold m.
        assert (Eeq : forall l, eq_vec pp <$> l = values_vec F <$> l) by (intros l; apply list_fmap_ext; intros i w _; unfold eq_vec; rewrite Hfan; symmetry; apply values_vec_split).
        rewrite !Eeq, EVl, EWl. reflexivity.
      - intros Vs HVs. unfold path_equalities. rewrite Hn. fold K. rewrite HFan, EVl, EWl.
        assert (E1 : take K Vs = v_V <$> take K ws). { rewrite fmap_take, <- HVs, take_take. f_equal. lia. }
        assert (E2 : take K (drop 1 Vs) = v_V <$> take K (drop 1 ws)). { rewrite fmap_take, fmap_drop, <- HVs. rewrite !take_drop_commute. rewrite take_take. do 2 f_equal. lia. }
        rewrite E1, E2. reflexivity.
    Qed.
    Lemma eq_pairs j zc p ws : poe_params (F + 2) (2 ^ j) α (po_POEPP pp) -> pad_to_pow2 (n - 1) = Ret (2 ^ j)%nat -> (n - 1 <= 2 ^ j)%nat -> Commit (po_PPPP pp) (zeros (F + 2)) = Ret zc ->
      length p = n -> (2 <= n)%nat -> Forall (fun i => i < F)%nat p -> length ws = n -> Forall vertex_ok ws -> linked F p ws ->
      let m := (2 ^ j)%nat in let prs := path_pairs m p ws in
      let Vl := path_V m zc (v_V <$> ws) in let Wl := path_V m zc (drop 1 (v_V <$> ws)) in
      length prs = m /\ Forall (pair_inbounds (F + 2)) prs /\ Forall entries_equal prs /\
      mapM (Commit (pe_PP (po_POEPP pp))) (pr_v <$> prs) = Ret Vl /\ mapM (Commit (pe_PP (po_POEPP pp))) (pr_w <$> prs) = Ret Wl /\
      pr_i <$> prs = take (n - 1) p ++ replicate (m - (n - 1)) 0%nat /\ pr_j <$> prs = replicate (n - 1) F ++ replicate (m - (n - 1)) 0%nat /\
      prove_equalities pp p ws = Ret (eq_statement poe_RO (po_POEPP pp) Vl Wl prs, pr_v <$> prs, pr_w <$> prs) /\
      (forall Vs, take n Vs = v_V <$> ws -> path_equalities pp zc m p Vs = eq_statement poe_RO (po_POEPP pp) Vl Wl prs).
    Proof.
      intros Hpoe Hpad Hle Hzc Hn Hn2 Hpath Hws Hok Hlink m prs Vl Wl.
      destruct (eq_pairs0 j zc p ws Hpoe Hpad Hle Hzc Hn Hn2 Hpath Hws) as (P1 & P2 & P3 & P4 & P5 & P6 & P7 & P8). destruct (P4 Hok) as [P4' P4'']. auto 10.
    Qed.
    Lemma eq_part p ws coins r1 r2 : length p = n -> (2 <= n)%nat -> Forall (fun i => i < F)%nat p -> length ws = n -> Forall vertex_ok ws -> linked F p ws ->
      (forall j, pad_to_pow2 (n - 1) = Ret j -> length coins = j) ->
      exists eqs vEQ wEQ zc m prf, prove_equalities pp p ws = Ret (eqs, vEQ, wEQ) /\ Equalities_Prove eqs vEQ wEQ coins r1 r2 = Ret prf /\
        Commit (po_PPPP pp) (zeros (po_Fanout pp + 2)) = Ret zc /\ pad_to_pow2 (length p - 1) = Ret m /\
        (nonzero (eq_challenges (po_POEPP pp) prf) -> forall Vs, take n Vs = v_V <$> ws -> Equalities_Verify (path_equalities pp zc m p Vs) prf = Ret nil_error).
    Proof.
      intros Hn Hn2 Hpath Hws Hok Hlink Hcoins. destruct eq_params as (j & zc & Hpoe & Hpad & Hle & Hzc).
      destruct (eq_pairs j zc p ws Hpoe Hpad Hle Hzc Hn Hn2 Hpath Hws Hok Hlink) as (P1 & P2 & P3 & P4 & P5 & _ & _ & P8 & P9).
      destruct (C29_equalities_complete C j (F + 2) α (po_POEPP pp) poe_RO (path_pairs (2 ^ j) p ws) _ _ coins r1 r2 Hpoe (C28_package_oracle C) P1 (Hcoins _ Hpad) P2 P3 P4 P5) as (prf & Hprf & Hver).
      pose proof Hp as (_ & _ & HFan & _).
      eexists _, _, _, zc, (2 ^ j)%nat, prf. split; [exact P8|]. split; [exact Hprf|]. rewrite HFan, Hn. split; [exact Hzc|]. split; [exact Hpad|].
      intros Hnz Vs HVs. rewrite (P9 Vs HVs). apply Hver. exact Hnz.
    Qed.
  End Parts.

  (** ** The chain of vertices of an id *)
  Record chain (F : nat) (α : Zr) (p : path) (ws : list (Vertex C)) (z : Z) : Prop := MkChain {
    ch_len : length ws = length p;
    ch_path : Forall (fun i => i < F)%nat p;
    ch_ok : Forall (vertex_ok F α) ws;
    ch_ranged : Forall (ranged F) ws;
    ch_small : Forall (fun w => small F (v_digests w)) ws;
    ch_linked : linked F p ws;
    ch_hash : forall j w u i, ws !! j = Some w -> ws !! S j = Some u -> p !! j = Some i ->
      nth i (digests_vec F w) 0 = vertex_hash u /\ v_W w = Some (commitment (F + 2) α (digests_vec F w));
    ch_bottom : forall w i, last ws = Some w -> last p = Some i -> v_W w = None /\ v_digests w = ∅ /\ values_vec F w !! i = Some (zr z);
    ch_z : (0 <= z < 2 ^ 63)%Z }.

  (** The same without the commitment of the last vertex *)
  Record chain0 (F : nat) (α : Zr) (p : path) (ws : list (Vertex C)) (z : Z) : Prop := MkChain0 {
    c0_len : length ws = length p;
    c0_path : Forall (fun i => i < F)%nat p;
    c0_sums : Forall (fun w => sums_up (Vertex_Values w (F + 1))) ws;
    c0_inner : forall j w, ws !! j = Some w -> (S j < length p)%nat -> v_V w = commitment (F + 2) α (values_vec F w);
    c0_ranged : Forall (ranged F) ws;
    c0_small : Forall (fun w => small F (v_digests w)) ws;
    c0_linked : linked F p ws;
    c0_hash : forall j w u i, ws !! j = Some w -> ws !! S j = Some u -> p !! j = Some i ->
      nth i (digests_vec F w) 0 = vertex_hash u /\ v_W w = Some (commitment (F + 2) α (digests_vec F w));
    c0_bottom : forall w i, last ws = Some w -> last p = Some i -> v_W w = None /\ v_digests w = ∅ /\ values_vec F w !! i = Some (zr z);
    c0_z : (0 <= z < 2 ^ 63)%Z }.
  Lemma chain_chain0 F α p ws z : chain F α p ws z -> chain0 F α p ws z.
  Proof.
    intros [? ? Hok ? ? ? ? ? ?]. constructor; try done.
    - eapply Forall_impl; [exact Hok|]. intros w [_ Hw]. exact Hw.
    - intros j w Hw _. rewrite Forall_lookup in Hok. apply (Hok _ _ Hw).
  Qed.
  Lemma chain0_chain F α p ws z : chain0 F α p ws z -> (forall w, last ws = Some w -> v_V w = commitment (F + 2) α (values_vec F w)) -> chain F α p ws z.
  Proof.
    intros [L ? Hs Hi ? ? ? ? ? ?] Hl. constructor; try done. apply Forall_lookup. intros j w Hw. split; [|rewrite Forall_lookup in Hs; by apply (Hs j)].
    destruct (decide (S j < length p)%nat) as [Hj|Hj]; [by apply (Hi j)|]. apply Hl. rewrite last_lookup. pose proof (lookup_lt_Some _ _ _ Hw). replace (pred (length ws)) with j by lia. done.
  Qed.

  Lemma run_chain0 F α (pp : PolPP C) rnd order id2path pathof n cs ls id p z :
    tree_params F α pp -> fixed_paths F id2path pathof n (sets cs) -> (2 <= n)%nat -> set_run pp rnd order id2path cs ls ->
    (total_of F n pathof cs < 2 ^ 63)%Z -> id2path id = Ret p -> length p = n -> latest pathof (sets cs) p = Some z ->
    exists ws, VGet (C:=C) id2path (ls_tree ls) id = Ret (Some (z, ws)) /\ chain0 F α p ws z /\
      (forall j w, ws !! j = Some w -> stored (vs_db (vt_state (ls_tree ls))) (path_key (take j p)) w).
  Proof.
    intros Hp [HF Hg] Hn Hr Htot Hid Hl Hz. destruct (set_run_verkle F α _ _ _ _ _ _ Hp HF Hr) as [[Ho [db0 Ht]] Hnn].
    pose proof (verkle_get F α rnd order id2path pathof HF Ho n (sets cs) db0 _ id p Hg Ht Hid Hl) as HG. rewrite Hz in HG. destruct HG as (ws & HG & Lws & Hst).
    exists ws. split; [done|]. pose proof Hz as Hz'. apply latest_elem in Hz' as (id' & Hin & Hpath).
    assert (Hpf : Forall (fun i => i < F)%nat p) by (destruct (Hg _ _ Hin) as (_ & _ & H); rewrite Hpath in H; exact H).
    assert (HM : forall q z', latest pathof (sets cs) q = Some z' -> (0 <= z')%Z).
    { intros q z' Hq. apply latest_elem in Hq as (id2 & Hin2 & _). rewrite Forall_forall in Hnn. apply (Hnn _ Hin2). }
    assert (Hbelow : forall j, below pathof (sets cs) (take j p)). { intros j. exists id', z. split; [done|]. rewrite Hpath. exists (drop j p). by rewrite take_drop. }
    (* everything about vertex j *)
    assert (Hv : forall j w, ws !! j = Some w -> exists ex, wspec F α (n - j - 1) (take j p) ex (fun q => latest pathof (sets cs) (take j p ++ q)) (writes pathof (sets cs) (take j p)) (vs_db (vt_state (ls_tree ls))) w /\
      (forall i, ex i = true <-> below pathof (sets cs) (take j p ++ [i]))).
    { intros j w Hw. pose proof (lookup_lt_Some _ _ _ Hw) as Hj. rewrite Lws in Hj. destruct (Hst j Hj) as (w1 & Hw1 & Hs1). rewrite Hw in Hw1. injection Hw1 as <-.
      destruct (verkle_at F α rnd order id2path pathof HF Ho n _ db0 _ (take j p) Hg Ht (Hbelow j) ltac:(rewrite take_length; lia)) as (v & u & _ & _ & _ & w2 & Hs2 & Hspec & Hc).
      rewrite <- (stored_fun _ _ _ _ Hs1 Hs2) in Hspec. rewrite take_length, Nat.min_l in Hspec by lia. eauto. }
    (* values *)
    assert (Hval : forall j w i, ws !! j = Some w -> default 0 (v_values w !! i) = zr (total F (n - j - 1) (fun q => latest pathof (sets cs) (take j p ++ i :: q)))).
    { intros j w i Hw. destruct (Hv j w Hw) as (ex & (_ & W2 & _) & Hc). rewrite W2. destruct (ex i) eqn:E; [done|]. cbn [default]. rewrite total_empty; [done|].
      intros q Hq. apply latest_None. intros id2 z2 Hin2 Heq. assert (ex i = true); [|congruence]. apply Hc. exists id2, z2. split; [done|]. rewrite Heq. exists q. by rewrite <- app_assoc. }
    assert (Hsub : forall h q, Forall (fun i => i < F)%nat q -> (length q + h = n)%nat -> (0 <= total F h (fun q' => latest pathof (sets cs) (q ++ q')) < 2 ^ 63)%Z).
    { intros h q Hq Hlen. split; [apply total_nonneg; intros; eapply HM; eassumption|]. eapply Z.le_lt_trans; [|exact Htot]. unfold total_of. rewrite <- Hlen. by apply total_sub. }
    assert (Hir : forall h q, Forall (fun i => i < F)%nat q -> (length q + h = n)%nat -> Prop_range.in_range (zr (total F h (fun q' => latest pathof (sets cs) (q ++ q'))))) by (intros; apply small_in_range; auto).
    assert (Hn1 : forall j w, ws !! j = Some w -> (j < n)%nat) by (intros j w Hw; apply lookup_lt_Some in Hw; lia).
    assert (Htake : forall j, Forall (fun i => i < F)%nat (take j p)) by (intros; by apply Forall_take).
    split; [|intros j w Hw; destruct (Hst j ltac:(by eapply Hn1)) as (w0 & Hw0 & Hs0); congruence].
    constructor.
    - lia.
    - done.
    - apply Forall_lookup. intros j w Hw. pose proof (Hn1 j w Hw) as Hj. destruct (Hv j w Hw) as (ex & (W1 & W2 & W3) & Hc).
      exists ((fun i => default 0 (v_values w !! i)) <$> seq 0 F). rewrite Vertex_Values_spec. do 2 f_equal. rewrite W1, total_S, zr_sumZ. f_equal.
      apply list_fmap_ext. intros _ i _. symmetry. apply Hval. done.
    - intros j w Hw Hj. destruct (Hv j w Hw) as (ex & (W1 & W2 & W3) & Hc).
      assert (Commit (NewPublicParams (C:=C) (F + 2) α) (values_vec F w) = Ret (v_V w)) as HC by (destruct (n - j - 1)%nat as [|h] eqn:E; [lia|apply W3]).
      rewrite commit_spec in HC by (rewrite ?values_vec_length; lia). congruence.
    - apply Forall_lookup. intros j w Hw. pose proof (Hn1 j w Hw) as Hj. unfold ranged. rewrite Vertex_Values_spec. apply Forall_app. split.
      + apply Forall_fmap, Forall_forall. intros i Hi. apply elem_of_seq in Hi. cbn. rewrite (Hval j w i Hw).
        rewrite (total_ext F _ _ (fun q => latest pathof (sets cs) ((take j p ++ [i]) ++ q))) by (intros; by rewrite <- app_assoc).
        apply Hir; [apply Forall_app; split; [done|repeat constructor; lia]|]. rewrite app_length, take_length. cbn. lia.
      + apply Forall_cons. split; [|constructor]. destruct (Hv j w Hw) as (ex & (W1 & _) & _). rewrite W1. apply Hir; [done|]. rewrite take_length. lia.
    - apply Forall_lookup. intros j w Hw. pose proof (Hn1 j w Hw) as Hj. destruct (Hv j w Hw) as (ex & (W1 & W2 & W3) & Hc). intros i Hi. destruct (n - j - 1)%nat as [|h] eqn:E.
      + destruct W3 as (W3 & _). rewrite W3, lookup_empty in Hi. destruct Hi as [? [=]].
      + destruct W3 as (W3 & _). specialize (W3 i). destruct (ex i) eqn:Ei; [|rewrite W3 in Hi; destruct Hi as [? [=]]].
        apply Hc in Ei as (id2 & z2 & Hin2 & [s Hs]). destruct (Hg _ _ Hin2) as (_ & _ & H). rewrite Hs in H. apply Forall_app in H as [H _]. apply Forall_app in H as [_ H]. by apply Forall_cons in H as [H _].
    - intros j w u i Hw Hu Hi. pose proof (Hn1 _ u Hu) as Hj. assert (HiF : (i < F)%nat) by (rewrite Forall_forall in Hpf; apply Hpf, elem_of_list_lookup; eauto).
      rewrite values_vec_value by done. f_equal. rewrite (Hval j w i Hw). destruct (Hv (S j) u Hu) as (ex & (W1 & _) & _). rewrite W1. f_equal.
      replace (S (n - S j - 1)) with (n - j - 1)%nat by lia. apply total_ext. intros q _. rewrite (take_S_r _ _ _ Hi), <- app_assoc. done.
    - intros j w u i Hw Hu Hi. pose proof (Hn1 _ u Hu) as Hj. assert (HiF : (i < F)%nat) by (rewrite Forall_forall in Hpf; apply Hpf, elem_of_list_lookup; eauto).
      destruct (Hv j w Hw) as (ex & (_ & _ & W3) & Hc). destruct (n - j - 1)%nat as [|h] eqn:E; [lia|]. destruct W3 as (W3 & _ & W & W4 & W5).
      rewrite commit_spec in W5 by (rewrite ?digests_vec_length; lia). injection W5 as <-. split; [|done].
      unfold digests_vec. rewrite nth_fmap_seq by done. assert (Hex : ex i = true) by (apply Hc; rewrite <- (take_S_r _ _ _ Hi); apply Hbelow).
      specialize (W3 i). rewrite Hex in W3. destruct W3 as (u' & Hu' & ->). cbn. rewrite <- (take_S_r _ _ _ Hi) in Hu'.
      destruct (Hst (S j) Hj) as (u2 & Hu2 & Hs2). rewrite Hu in Hu2. injection Hu2 as <-. rewrite (stored_fun _ _ _ _ Hu' Hs2). done.
    - intros w i Hw Hi. rewrite last_lookup, Lws in Hw. rewrite last_lookup, Hl in Hi. replace (pred n) with (n - 1)%nat in * by lia.
      assert (HiF : (i < F)%nat) by (rewrite Forall_forall in Hpf; apply Hpf, elem_of_list_lookup; eauto).
      rewrite values_vec_value by done. rewrite (Hval _ w i Hw). destruct (Hv _ w Hw) as (ex & (_ & _ & W3) & _). replace (n - (n - 1) - 1)%nat with 0%nat in * by lia. split; [apply W3|]. split; [apply W3|].
      rewrite total_0. replace (take (n - 1) p ++ [i]) with p; [rewrite Hz; done|]. rewrite <- (take_S_r _ _ _ Hi), take_ge by lia. done.
    - pose proof (Hsub 0%nat p Hpf ltac:(lia)) as H. rewrite total_0, app_nil_r, Hz in H. exact H.
  Qed.

  Lemma run_chain F α (pp : PolPP C) rnd order id2path pathof n cs ls id p z :
    tree_params F α pp -> fixed_paths F id2path pathof n (sets cs) -> (2 <= n)%nat -> set_run pp rnd order id2path cs ls ->
    (total_of F n pathof cs < 2 ^ 63)%Z -> id2path id = Ret p -> length p = n -> latest pathof (sets cs) p = Some z ->
    writes pathof (sets cs) (take (n - 1) p) = 1%nat ->
    exists ws, VGet (C:=C) id2path (ls_tree ls) id = Ret (Some (z, ws)) /\ chain F α p ws z /\
      exists w0, ws !! 0%nat = Some w0 /\ stored (vs_db (vt_state (ls_tree ls))) "" w0.
  Proof.
    intros Hp Hf Hn Hr Htot Hid Hl Hz Hone. destruct (run_chain0 F α pp rnd order id2path pathof n cs ls id p z Hp Hf Hn Hr Htot Hid Hl Hz) as (ws & HG & H0 & Hst).
    exists ws. split; [done|]. pose proof (c0_len _ _ _ _ _ H0) as L.
    split; [|destruct (lookup_lt_is_Some_2 ws 0%nat ltac:(lia)) as [w0 Hw0]; exists w0; split; [done|]; apply (Hst 0%nat w0 Hw0)].
    apply chain0_chain; [done|]. intros w Hw. rewrite last_lookup in Hw. replace (pred (length ws)) with (n - 1)%nat in Hw by lia.
    destruct Hf as [HF Hg]. destruct (set_run_verkle F α _ _ _ _ _ _ Hp HF Hr) as [[Ho [db0 Ht]] Hnn].
    apply latest_elem in Hz as (id' & Hin & Hpath).
    assert (Hb : below pathof (sets cs) (take (n - 1) p)) by (exists id', z; split; [done|]; rewrite Hpath; exists (drop (n - 1) p); by rewrite take_drop).
    destruct (verkle_at F α rnd order id2path pathof HF Ho n _ db0 _ (take (n - 1) p) Hg Ht Hb ltac:(rewrite take_length; lia)) as (v & u & _ & _ & _ & w2 & Hs2 & (_ & _ & W3) & _).
    rewrite <- (stored_fun _ _ _ _ (Hst _ _ Hw) Hs2) in W3. rewrite take_length, Nat.min_l in W3 by lia. replace (n - (n - 1) - 1)%nat with 0%nat in W3 by lia.
    destruct W3 as (_ & _ & W3). specialize (W3 Hone). rewrite commit_spec in W3 by (rewrite ?values_vec_length; lia). congruence.
  Qed.

  (** ** Putting together an accepted proof *)
  Lemma assemble F α n k pp p ws (extra : list (Vertex C)) (ds : list (list Zr)) Digests rps sumArg eqp Σ π X πX w0 d0 :
    params_ok F α n k pp -> length p = n -> (2 <= n)%nat -> length ws = n -> length ds = (n - 1)%nat ->
    ws !! 0%nat = Some w0 -> ds !! 0%nat = Some d0 ->
    (forall i w d, (1 <= i)%nat -> ws !! i = Some w -> ds !! i = Some d -> v_W w = Some (commitment (F + 2) α d)) ->
    (forall w, last ws = Some w -> v_W w = None) ->
    length Digests = n -> (forall j u, ws !! S j = Some u -> Digests !! j = Some (vertex_hash u)) ->
    length rps = n -> (forall i w rp, ws !! i = Some w -> rps !! i = Some rp -> VerifyRange (po_RPPP pp) rp (v_V w) = Ret nil_error) ->
    VerifyAggregation (po_PPPP pp) (take (n - 1) p) (commitment (C:=C) (F + 2) α <$> ds) π Σ RO = Ret nil_error ->
    sum_VerifyAggregated sumArg (po_SAPP pp) (v_V <$> (ws ++ extra)) = Ret nil_error ->
    (exists zc m, Commit (po_PPPP pp) (zeros (po_Fanout pp + 2)) = Ret zc /\ pad_to_pow2 (length p - 1) = Ret m /\
      Equalities_Verify (path_equalities pp zc m p (v_V <$> (ws ++ extra))) eqp = Ret nil_error) ->
    (forall w i, last (ws ++ extra) = Some w -> last p = Some i -> Verify (po_PPPP pp) (zr X) πX (v_V w) i = Ret nil_error) ->
    accepted pp p (v_V w0) (commitment (F + 2) α d0)
      (MkLP Σ π sumArg (v_V <$> (ws ++ extra)) (commitment (F + 2) α <$> ds) Digests rps eqp (MkTP πX X)).
  Proof.
    intros Hp Hl Hn Lws Lds Hw0 Hd0 HW HWl LD HD Lr HR HA HS HE HL.
    assert (HV : forall i w, ws !! i = Some w -> (v_V <$> (ws ++ extra)) !! i = Some (v_V w)) by (intros i w Hw; rewrite list_lookup_fmap, (lookup_app_l_Some _ _ _ _ Hw); done).
    assert (Hlook : forall i, (i < n)%nat -> exists w, ws !! i = Some w) by (intros i Hi; apply lookup_lt_is_Some_2; lia).
    constructor; cbn [lp_W lp_Digests lp_V lp_RangeProofs lp_π lp_Σ lp_sum lp_Eq lp_Liability tp_Sum tp_proof].
    - rewrite fmap_length. lia.
    - lia.
    - apply HV. done.
    - rewrite list_lookup_fmap, Hd0. done.
    - intros i Hi. destruct (Hlook i ltac:(lia)) as [w Hw]. destruct (lookup_lt_is_Some_2 rps i ltac:(lia)) as [rp Hrp]. exists rp, (v_V w). split; [done|]. split; [by apply HV|]. by apply (HR i).
    - intros i Vi Wi Hi HVi HWi. destruct (Hlook i ltac:(lia)) as [w Hw]. rewrite (HV _ _ Hw) in HVi. injection HVi as <-.
      rewrite list_lookup_fmap in HWi. destruct (ds !! i) as [d|] eqn:Ed; [|done]. cbn in HWi. injection HWi as <-.
      rewrite (HD (i - 1)%nat w) by (replace (S (i - 1)) with i by lia; done). unfold vertex_hash, hash_scalar. rewrite (HW i w d ltac:(lia) Hw Ed). cbn [fmap list_fmap concat]. rewrite app_nil_r. done.
    - intros Vi HVi. destruct (Hlook (n - 1)%nat ltac:(lia)) as [w Hw]. rewrite Hl, (HV _ _ Hw) in HVi. injection HVi as <-. rewrite Hl.
      rewrite (HD (n - 2)%nat w) by (replace (S (n - 2)) with (n - 1)%nat by lia; done). unfold vertex_hash, hash_scalar. rewrite (HWl w) by (rewrite last_lookup, Lws; replace (pred n) with (n - 1)%nat by lia; done).
      cbn [fmap list_fmap concat]. done.
    - rewrite Hl. done.
    - done.
    - done.
    - destruct (last (ws ++ extra)) as [w|] eqn:El; [|apply last_None in El; apply app_eq_nil in El as [-> _]; cbn in Lws; lia].
      destruct (last p) as [i|] eqn:Ei; [|apply last_None in Ei; subst p; cbn in Hl; lia]. exists (v_V w), i. rewrite fmap_last, El. split; [done|]. split; [done|]. by apply HL.
  Qed.
End Chain.
