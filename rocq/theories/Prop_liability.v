(** Properties C53, C56, C57: liability proofs of honest states, and accepted proofs that no honest prover makes.

    Specification: as in Prop_set.v and, for acceptance, Prop_accept.v. *)
From Verif Require Import Prop_paths Prop_range Prop_sum Prop_poe Prop_pp Poe_facts Prop_params Toy Pol_chain Pol_run.
Local Open Scope Zr_scope.
Notation nonzero := (Forall (fun x : Zr => x <> 0)).

(** The random vectors of a run of ProveLiability have the lengths the code draws. *)
Definition coins_fit {C : Curve} (pp : PolPP C) (co : ProofCoins) : Prop :=
  (forall i, coins_ok (length (rp_Gs (po_RPPP pp))) (pc_range co i)) /\
  length (pc_w co) = length (sp_H (po_SAPP pp)) /\ length (pc_eq co) = length (pe_G (po_POEPP pp)).
(** Exactly one Set of the history went through the vertex just above the liability of path p. *)
Definition bottom_set_once (pathof : string -> path) (cs : list call) (p : path) : Prop :=
  length (filter (fun e => take (length p - 1) p `prefix_of` pathof (fst e)) (sets cs)) = 1%nat.
(** An honest state with a liability z recorded for id, whose path is p *)
Definition honest_state {C : Curve} (F : nat) (α : Zr) (pp : PolPP C) rnd order id2path pathof cs ls id p z : Prop :=
  (2 <= length p)%nat /\ (exists k, params_ok F α (length p) k pp) /\ fixed_paths F id2path pathof (length p) (sets cs) /\
  set_run pp rnd order id2path cs ls /\ (total_of F (length p) pathof cs < 2 ^ 63)%Z /\
  id2path id = Ret p /\ latest pathof (sets cs) p = Some z /\ bottom_set_once pathof cs p.

Lemma list_choice {A B} (P : nat -> A -> B -> Prop) (l : list A) : (forall i a, l !! i = Some a -> exists b, P i a b) ->
  exists k, length k = length l /\ forall i a b, l !! i = Some a -> k !! i = Some b -> P i a b.
Proof.
  revert P. induction l as [|a l IH]; intros P H; [exists []; split; [done|]; intros i x b Hi; done|].
  destruct (H 0%nat a Logic.eq_refl) as [b Hb]. destruct (IH (fun i => P (S i)) (fun i x Hi => H (S i) x Hi)) as (k & Hl & Hk).
  exists (b :: k). split; [cbn; lia|]. intros [|i] x y Hx Hy; cbn in Hx, Hy; [congruence|by apply (Hk i)].
Qed.
Lemma nonzero_concat {A B} (f : A -> B -> list Zr) l k i a b : nonzero (concat (zip_with f l k)) -> l !! i = Some a -> k !! i = Some b -> nonzero (f a b).
Proof.
  revert k i. induction l as [|x l IH]; intros [|y k] i H Ha Hb; try done. cbn [zip_with concat] in H. apply Forall_app in H as [H1 H2].
  destruct i as [|i]; cbn in Ha, Hb; [congruence|by apply (IH k i)].
Qed.
Lemma zip_with_fmap_zip {A B D} (f : A -> B -> D) l k : zip_with f l k = (fun x => f (fst x) (snd x)) <$> zip l k.
Proof. revert k. induction l as [|a l IH]; intros [|b k]; [done..|]. cbn [zip_with]. rewrite fmap_cons. f_equal. apply IH. Qed.
Lemma zip_snoc {A B} (l : list A) (k : list B) a b : length l = length k -> zip (l ++ [a]) (k ++ [b]) = zip l k ++ [(a, b)].
Proof. intros H. rewrite zip_with_app by done. done. Qed.

Section Liability.
  Context {C : Curve}.

  Lemma vertex_digests_vec (F : nat) (α : Zr) n k (pp : PolPP C) (w : Vertex C) : params_ok F α n k pp -> small F (v_digests w) -> vertex_digests pp w = digests_vec F w.
  Proof.
    intros Hp Hs. unfold vertex_digests, digests_vec. rewrite (pp_fanout F α n k pp Hp), seq_app, fmap_app. cbn [seq fmap list_fmap]. do 2 f_equal.
    - destruct (v_digests w !! (0 + F)%nat) eqn:E; [|done]. specialize (Hs (0 + F)%nat ltac:(rewrite E; done)). lia.
    - f_equal. destruct (v_digests w !! S (0 + F)) eqn:E; [|done]. specialize (Hs (S (0 + F)) ltac:(rewrite E; done)). lia.
  Qed.

  Section Form.
    Variable (F : nat) (α : Zr) (k : nat) (pp : PolPP C) (p : path) (ws : list (Vertex C)) (z : Z) (co : ProofCoins).
    Let n := length p.
    Hypothesis (Hp : params_ok F α n k pp) (Hn : (2 <= n)%nat) (Hch : chain0 F α p ws z).
    Notation cm := (commitment (C:=C) (F + 2) α).
    Notation opening d i := (gmul (open_exp (F + 2) α i d) (gen1 C)).

    (** What ProveLiability computes, whatever its random values *)
    Lemma prove_form0 ls id id2path ws0 wl p0 il : id2path id = Ret p -> VGet (C:=C) id2path (ls_tree ls) id = Ret (Some (z, ws)) ->
      ws = ws0 ++ [wl] -> p = p0 ++ [il] ->
      let ds := digests_vec F <$> ws0 in
      ProveLiability pp id2path co ls id =
        let! rps := mapM (fun i => let! w := idx ws i in ProveRange (po_RPPP pp) (v_V w) (Vertex_Values w (F + 1)) (v_bf w) (pc_range co i)) (seq 0 n) in
        let! π := Aggregate (po_PPPP pp) (cm <$> ds) (zip_with (fun d i => opening d i) ds p0) RO in
        let! sumArg := SumArgument ws (po_SAPP pp) (pc_w co) (pc_r' co) in
        let! '(eqs, vEQ, wEQ) := prove_equalities pp p ws in
        let! eqp := Equalities_Prove eqs vEQ wEQ (pc_eq co) (pc_r1 co) (pc_r2 co) in
        Ret (Some (z, MkLP (dot (zip_with (fun d i => nth i d 0) ds p0) (agg_ro F α (cm <$> ds) <$> seq 0 (length ds))) π sumArg (v_V <$> ws) (cm <$> ds)
          (zip_with (fun w i => nth i (digests_vec F w) 0) ws p) rps eqp (MkTP (opening (values_vec F wl) il) z))).
    Proof.
      intros Hid HG Ews Ep ds.
      pose proof Hch as [L Hpath _ _ _ Hsmall Hlink Hhash Hbot Hz]. pose proof Hp as (EF & _ & HFan & HPP & _). pose proof (pp_fanout F α n k pp Hp) as Hfan.
      assert (Lp0 : length p0 = (n - 1)%nat) by (unfold n; rewrite Ep, app_length; cbn; lia). assert (L0 : length ws0 = (n - 1)%nat) by (rewrite Ews, app_length in L; unfold n; cbn in L; lia).
      rewrite Forall_forall in Hsmall. rewrite Forall_forall in Hpath. assert (Hds : ds = digests_vec F <$> ws0) by done. assert (Lds : length ds = (n - 1)%nat) by (rewrite Hds, fmap_length; done).
      set (T := zip ws p). assert (LT : length T = n) by (unfold T; rewrite zip_with_length, L; apply Nat.min_id).
      assert (HT : T = zip ws0 p0 ++ [(wl, il)]) by (unfold T; rewrite Ews, Ep; apply zip_snoc; lia).
      rewrite (zip_with_fmap_zip (fun w i => nth i (digests_vec F w) 0) ws p). fold T. set (Digests := (fun t : Vertex C * nat => nth (snd t) (digests_vec F (fst t)) 0) <$> T).
      assert (HDt : take (n - 1) Digests = zip_with (fun d i => nth i d 0) ds p0).
      { unfold Digests. rewrite HT, fmap_app, take_app_alt by (rewrite fmap_length, zip_with_length; lia). rewrite zip_with_fmap_zip, Hds. clear. revert p0. induction ws0 as [|w ws0 IH]; intros [|i p0]; try done. rewrite fmap_cons. cbn [zip_with]. rewrite !fmap_cons. f_equal. apply IH. }
      assert (Hil : (il < F)%nat) by (apply Hpath; rewrite Ep; apply elem_of_app; right; left).
      destruct (Hbot wl il) as (Hwl & _ & Hvl); [rewrite Ews; apply last_snoc|rewrite Ep; apply last_snoc|].
      assert (Hlinks : forall j w, ws0 !! j = Some w -> v_W w = Some (cm (digests_vec F w))).
      { intros j w Hw. pose proof (lookup_lt_Some _ _ _ Hw) as Hj. destruct (lookup_lt_is_Some_2 ws (S j) ltac:(lia)) as [u Hu]. destruct (lookup_lt_is_Some_2 p j ltac:(unfold n in *; lia)) as [i Hi].
        apply (Hhash j w u i); [rewrite Ews; by apply lookup_app_l_Some|done..]. }
      unfold ProveLiability. rewrite Hid. cbn [rbind]. rewrite HG. cbn [rbind]. fold n. rewrite (proj2 (Nat.leb_le 1 n)) by lia.
        rewrite (proj2 (mapM_idx_take (fun i => idx ws i) ws 0 n (take n ws) ltac:(intros; f_equal; lia)) ltac:(split; [unfold n; lia|done])). cbn [rbind]. rewrite take_ge by (unfold n; lia).
        rewrite (Pol_chain.mapM_ext (fun i => let! v := idx ws i in prove_range_of pp co v i) (fun i => let! w := idx ws i in ProveRange (po_RPPP pp) (v_V w) (Vertex_Values w (F + 1)) (v_bf w) (pc_range co i)))
          by (intros i; destruct (idx ws i) as [v| |]; [|done|done]; cbn [rbind]; unfold prove_range_of; rewrite Hfan; done).
        destruct (mapM (fun i => let! w := idx ws i in ProveRange _ _ _ _ _) (seq 0 n)) as [rps| |]; [|done|done].
        cbn [rbind].
        replace (mapM (fun i => let! v := idx ws i in let! pi := idx p i in let! '(digest, π) := Open (po_PPPP pp) pi (vertex_digests pp v) in Ret (v_W v, digest, π)) (seq 0 n))
          with (Ret ((fun t : Vertex C * nat => (v_W (fst t), nth (snd t) (digests_vec F (fst t)) 0, opening (digests_vec F (fst t)) (snd t))) <$> T)).
        2: { rewrite <- LT. symmetry. apply mapM_items. intros i [w x] Ht. unfold T in Ht. apply lookup_zip_with_Some in Ht as (w' & x' & E & Hw & Hx). injection E as <- <-. unfold idx. rewrite Hw, Hx. cbn [rbind fst snd].
             rewrite (vertex_digests_vec F α n k pp w Hp) by (apply Hsmall, elem_of_list_lookup; eauto). rewrite HPP, open_spec; [done|apply digests_vec_length| |lia].
             assert (x < F)%nat by (apply Hpath, elem_of_list_lookup; eauto). lia. }
        cbn [rbind]. 
        assert (HW : omap (fun o : option (G1 C) * Zr * G1 C => fst (fst o)) ((fun t : Vertex C * nat => (v_W (fst t), nth (snd t) (digests_vec F (fst t)) 0, opening (digests_vec F (fst t)) (snd t))) <$> T) = cm <$> ds).
        { rewrite HT, fmap_app, omap_app. cbn [fmap list_fmap omap list_omap fst snd]. rewrite Hwl, app_nil_r, Hds. clear -Hlinks L0 Lp0. assert (HL : length ws0 = length p0) by lia. clear L0 Lp0. revert p0 HL.
          induction ws0 as [|w l IH]; intros [|i p0] HL; try done. cbn [zip_with]. rewrite !fmap_cons. cbn [omap list_omap fst snd]. rewrite (Hlinks 0%nat w Logic.eq_refl). f_equal. apply IH; [|cbn in HL; lia]. intros j. apply (Hlinks (S j)). }
        assert (HΠ : omap (fun o : option (G1 C) * Zr * G1 C => match fst (fst o) with Some _ => Some (snd o) | None => None end) ((fun t : Vertex C * nat => (v_W (fst t), nth (snd t) (digests_vec F (fst t)) 0, opening (digests_vec F (fst t)) (snd t))) <$> T) =
          zip_with (fun d i => opening d i) ds p0).
        { rewrite HT, fmap_app, omap_app. cbn [fmap list_fmap omap list_omap fst snd]. rewrite Hwl, app_nil_r, Hds. clear -Hlinks L0 Lp0. assert (HL : length ws0 = length p0) by lia. clear L0 Lp0. revert p0 HL.
          induction ws0 as [|w l IH]; intros [|i p0] HL; try done. rewrite fmap_cons. cbn [zip_with]. rewrite !fmap_cons. cbn [omap list_omap fst snd]. rewrite (Hlinks 0%nat w Logic.eq_refl). f_equal. apply IH; [|cbn in HL; lia]. intros j. apply (Hlinks (S j)). }
        rewrite HW, HΠ. rewrite <- list_fmap_compose. change (_ ∘ _ <$> T) with Digests.
        assert (Ew : ws !! (n - 1)%nat = Some wl) by (rewrite Ews, lookup_app_r by lia; rewrite L0, Nat.sub_diag; done).
        assert (Epl : p !! (n - 1)%nat = Some il) by (rewrite Ep, lookup_app_r by lia; rewrite Lp0, Nat.sub_diag; done).
        unfold idx at 1. rewrite Ew. cbn [rbind]. unfold idx at 1. rewrite Epl. cbn [rbind]. unfold openForClient. rewrite (vertex_vec_eq F α pp wl) by (by apply (params_ok_tree _ _ n k)).
        rewrite HPP, open_spec by (rewrite ?values_vec_length; lia). cbn [rbind]. rewrite nth_lookup, Hvl. change (default 0 (Some (zr z))) with (zr z).
        unfold Zr_Int. pose proof pow63_r. rewrite zv_zr_small by lia. rewrite (proj2 (Z.ltb_lt _ _)) by lia.
        rewrite (mapM_ret _ (agg_ro F α (cm <$> ds))) by (intros i _; apply RO_spec). cbn [rbind]. rewrite fmap_length, seq_length, slice_to_spec by (unfold Digests; rewrite fmap_length; lia). cbn [rbind].
        rewrite HDt, vec_innerprod_spec by (rewrite zip_with_length, fmap_length, seq_length; lia). cbn [rbind].
        rewrite Lds. reflexivity.
    Qed.
  End Form.

  Section Run.
    Variable (F : nat) (α : Zr) (k : nat) (pp : PolPP C) (p : path) (ws : list (Vertex C)) (z : Z) (co : ProofCoins).
    Let n := length p.
    Hypothesis (Hp : params_ok F α n k pp) (Hn : (2 <= n)%nat) (Hch : chain F α p ws z) (Hco : coins_fit pp co).
    Notation cm := (commitment (C:=C) (F + 2) α).
    Notation opening d i := (gmul (open_exp (F + 2) α i d) (gen1 C)).

    Lemma run_coins : (forall i, coins_ok (2 ^ k) (pc_range co i)) /\ length (pc_w co) = (2 ^ k)%nat /\ (forall j, pad_to_pow2 (n - 1) = Ret j -> length (pc_eq co) = j).
    Proof.
      destruct Hco as (H1 & H2 & H3). pose proof Hp as (_ & _ & _ & _ & HR & HS & _ & _ & _ & _ & j & _ & Hpoe & _ & Hpad).
      rewrite (proj1 (proj2 HR)) in H1. rewrite (proj1 (proj2 HS)) in H2. rewrite (proj1 (proj2 Hpoe)) in H3. split; [done|]. split; [done|]. intros j' Hj'. rewrite Hpad in Hj'. congruence.
    Qed.
    (** The range proofs of the run *)
    Lemma run_ranges : exists rps, length rps = n /\
      (forall i w rp, ws !! i = Some w -> rps !! i = Some rp ->
        (exists ipaPP, ProveRange_unchecked (po_RPPP pp) (v_V w) (Vertex_Values w (F + 1)) (v_bf w) (pc_range co i) = Ret (rp, ipaPP)) /\
        (nonzero (range_challenges (po_RPPP pp) rp (v_V w)) ->
         ProveRange (po_RPPP pp) (v_V w) (Vertex_Values w (F + 1)) (v_bf w) (pc_range co i) = Ret rp /\ VerifyRange (po_RPPP pp) rp (v_V w) = Ret nil_error)).
    Proof.
      destruct run_coins as (Hcr & _). destruct Hch as [L _ Hok Hr _ _ _ _ _]. rewrite Forall_lookup in Hok. rewrite Forall_lookup in Hr.
      destruct (list_choice (fun i w rp => (exists ipaPP, ProveRange_unchecked (po_RPPP pp) (v_V w) (Vertex_Values w (F + 1)) (v_bf w) (pc_range co i) = Ret (rp, ipaPP)) /\
        (nonzero (range_challenges (po_RPPP pp) rp (v_V w)) ->
         ProveRange (po_RPPP pp) (v_V w) (Vertex_Values w (F + 1)) (v_bf w) (pc_range co i) = Ret rp /\ VerifyRange (po_RPPP pp) rp (v_V w) = Ret nil_error)) ws) as (rps & Hl & H).
      { intros i w Hw. apply (range_part F α n k pp Hp); eauto. }
      exists rps. split; [unfold n; lia|done].
    Qed.

    Lemma chain_split : exists ws0 wl p0 il, ws = ws0 ++ [wl] /\ p = p0 ++ [il] /\ length ws0 = (n - 1)%nat /\ length p0 = (n - 1)%nat.
    Proof.
      pose proof (ch_len _ _ _ _ _ Hch) as L. destruct (exists_last (l := ws)) as (ws0 & wl & ->); [intros ->; cbn in L; unfold n in Hn; lia|].
      destruct (exists_last (l := p)) as (p0 & il & Ep); [intros E; unfold n in Hn; rewrite E in Hn; cbn in Hn; lia|].
      exists ws0, wl, p0, il. split; [done|]. split; [done|]. unfold n in *. rewrite Ep in *. rewrite !app_length in *. cbn in *. lia.
    Qed.
    (** What ProveLiability computes, whatever its random values *)
    Lemma prove_form ls id id2path ws0 wl p0 il : id2path id = Ret p -> VGet (C:=C) id2path (ls_tree ls) id = Ret (Some (z, ws)) ->
      ws = ws0 ++ [wl] -> p = p0 ++ [il] ->
      let ds := digests_vec F <$> ws0 in
      ProveLiability pp id2path co ls id =
        let! rps := mapM (fun i => let! w := idx ws i in ProveRange (po_RPPP pp) (v_V w) (Vertex_Values w (F + 1)) (v_bf w) (pc_range co i)) (seq 0 n) in
        let! π := Aggregate (po_PPPP pp) (cm <$> ds) (zip_with (fun d i => opening d i) ds p0) RO in
        let! sumArg := SumArgument ws (po_SAPP pp) (pc_w co) (pc_r' co) in
        let! '(eqs, vEQ, wEQ) := prove_equalities pp p ws in
        let! eqp := Equalities_Prove eqs vEQ wEQ (pc_eq co) (pc_r1 co) (pc_r2 co) in
        Ret (Some (z, MkLP (dot (zip_with (fun d i => nth i d 0) ds p0) (agg_ro F α (cm <$> ds) <$> seq 0 (length ds))) π sumArg (v_V <$> ws) (cm <$> ds)
          (zip_with (fun w i => nth i (digests_vec F w) 0) ws p) rps eqp (MkTP (opening (values_vec F wl) il) z))).
    Proof. intros. by apply (prove_form0 F α k pp p ws z co Hp Hn (chain_chain0 _ _ _ _ _ Hch)). Qed.
    (** The proof of the honest prover *)
    Lemma run_proof rps ls id id2path : length rps = n ->
      (forall i w rp, ws !! i = Some w -> rps !! i = Some rp -> ProveRange (po_RPPP pp) (v_V w) (Vertex_Values w (F + 1)) (v_bf w) (pc_range co i) = Ret rp) ->
      id2path id = Ret p -> VGet (C:=C) id2path (ls_tree ls) id = Ret (Some (z, ws)) ->
      let ds := digests_vec F <$> take (n - 1) ws in
      exists Σ π sumArg Digests eqp πX w0 d0,
        let lp := MkLP Σ π sumArg (v_V <$> ws) (cm <$> ds) Digests rps eqp (MkTP πX z) in
        ProveLiability pp id2path co ls id = Ret (Some (z, lp)) /\ ws !! 0%nat = Some w0 /\ ds !! 0%nat = Some d0 /\ v_W w0 = Some (cm d0) /\
        Digests !! (n - 1)%nat <> None /\ length Digests = n /\ (forall j u, ws !! S j = Some u -> Digests !! j = Some (vertex_hash u)) /\
        ((forall i w rp, ws !! i = Some w -> rps !! i = Some rp -> VerifyRange (po_RPPP pp) rp (v_V w) = Ret nil_error) ->
         nonzero (sum_challenges (po_SAPP pp) sumArg ++ eq_challenges (po_POEPP pp) eqp) ->
         accepted pp p (v_V w0) (cm d0) lp).
    Proof.
      intros Lr HR Hid HG ds. destruct run_coins as (_ & Hcw & Hce). destruct chain_split as (ws0 & wl & p0 & il & Ews & Ep & L0 & Lp0).
      pose proof Hch as [L Hpath Hok _ Hsmall Hlink Hhash Hbot Hz]. pose proof Hp as (EF & _ & HFan & HPP & _). pose proof (pp_fanout F α n k pp Hp) as Hfan.
      rewrite Forall_forall in Hsmall. rewrite Forall_forall in Hpath.
      assert (Htake : take (n - 1) ws = ws0) by (rewrite Ews, take_app_alt by done; done). assert (Htakep : take (n - 1) p = p0) by (rewrite Ep, take_app_alt by done; done).
      assert (Hds : ds = digests_vec F <$> ws0) by (unfold ds; rewrite Htake; done).
      destruct (sum_part F α n k pp Hp ws (pc_w co) (pc_r' co)) as (sumArg & Hsum & Hsumv); [rewrite Ews; destruct ws0; done|done|done|].
      destruct (eq_part F α n k pp Hp p ws (pc_eq co) (pc_r1 co) (pc_r2 co)) as (eqs & vEQ & wEQ & zc & m & eqp & He1 & He2 & He3 & He4 & He5); [done|done|apply Forall_forall; done|done|done|done|done|].
      assert (Hne : ds <> []) by (rewrite Hds; destruct ws0; [cbn in L0; lia|done]).
      assert (Lds : length ds = (n - 1)%nat) by (rewrite Hds, fmap_length; done).
      destruct (agg_part F α n k pp Hp ds p0) as (π & Hagg & Haggv).
      { done. } { rewrite Hds. apply Forall_fmap, Forall_forall. intros w _. apply digests_vec_length. } { apply Forall_forall. intros i Hi. apply Hpath. rewrite Ep. apply elem_of_app. by left. } { lia. }
      set (T := zip ws p). assert (LT : length T = n) by (unfold T; rewrite zip_with_length, L; apply Nat.min_id).
      set (Digests := (fun t : Vertex C * nat => nth (snd t) (digests_vec F (fst t)) 0) <$> T).
      assert (HT : T = zip ws0 p0 ++ [(wl, il)]) by (unfold T; rewrite Ews, Ep; apply zip_snoc; lia).
      assert (Hil : (il < F)%nat) by (apply Hpath; rewrite Ep; apply elem_of_app; right; left).
      destruct (Hbot wl il) as (Hwl & _ & Hvl); [rewrite Ews; apply last_snoc|rewrite Ep; apply last_snoc|].
      destruct ws0 as [|w0 ws0'] eqn:Ews0; [cbn in L0; lia|].
      assert (Hlinks : forall j w, ws0 !! j = Some w -> v_W w = Some (cm (digests_vec F w))).
      { intros j w Hw. rewrite Ews0 in Hw. pose proof (lookup_lt_Some _ _ _ Hw) as Hj. destruct (lookup_lt_is_Some_2 ws (S j) ltac:(lia)) as [u Hu]. destruct (lookup_lt_is_Some_2 p j ltac:(unfold n in *; lia)) as [i Hi].
        apply (Hhash j w u i); [rewrite Ews; by apply lookup_app_l_Some|done..]. }
      subst ws0. cbn in Hlinks.
      set (ws0 := w0 :: ws0') in *.
      eexists (dot (zip_with (fun d i => nth i d 0) ds p0) (agg_ro F α (cm <$> ds) <$> seq 0 (length ds))), π, sumArg, Digests, eqp, (opening (values_vec F wl) il), w0, (digests_vec F w0).
      cbv zeta. split; [|split; [|split; [|split; [|split; [|split; [|split]]]]]].
      - rewrite (prove_form ls id id2path ws0 wl p0 il Hid HG Ews Ep). rewrite <- Hds.
        replace (mapM _ (seq 0 n)) with (Ret rps).
        2: { rewrite <- Lr. rewrite (mapM_items _ (fun x => x) rps); [rewrite list_fmap_id; done|]. intros i rp Hrp. destruct (lookup_lt_is_Some_2 ws i) as [w Hw]; [apply lookup_lt_Some in Hrp; unfold n in *; lia|].
             unfold idx. rewrite Hw. cbn [rbind]. by apply HR. }
        cbn [rbind]. rewrite Hagg. cbn [rbind]. rewrite Hsum. cbn [rbind]. rewrite He1. cbn [rbind]. rewrite He2. cbn [rbind]. rewrite (zip_with_fmap_zip (fun w i => nth i (digests_vec F w) 0) ws p). reflexivity.
      - rewrite Ews. done.
      - rewrite Hds. done.
      - apply (Hlinks 0%nat w0). done.
      - unfold Digests. rewrite list_lookup_fmap. destruct (lookup_lt_is_Some_2 T (n - 1)%nat ltac:(lia)) as [t ->]. done.
      - unfold Digests. rewrite fmap_length. done.
      - intros j u Hu. pose proof (lookup_lt_Some _ _ _ Hu) as Hj. destruct (lookup_lt_is_Some_2 ws j ltac:(lia)) as [w Hw]. destruct (lookup_lt_is_Some_2 p j ltac:(lia)) as [i Hi].
        unfold Digests, T. rewrite list_lookup_fmap, (proj2 (lookup_zip_with_Some _ _ _ _ (w, i))) by eauto. cbn. f_equal. apply (Hhash j w u i); done.
      - intros Hver Hnz. apply Forall_app in Hnz as [Hnz1 Hnz2]. rewrite <- (app_nil_r ws) at 1.
        apply (assemble F α n k pp p ws [] ds Digests rps); try done.
        + rewrite Ews. done.
        + rewrite Hds. done.
        + intros i w d Hi Hw Hd. rewrite Hds, list_lookup_fmap in Hd. destruct (ws0 !! i) as [w'|] eqn:E; [|done]. cbn in Hd. injection Hd as <-.
          rewrite Ews in Hw. rewrite (lookup_app_l_Some _ _ _ _ E) in Hw. injection Hw as <-. by apply (Hlinks i).
        + intros w Hw. rewrite Ews, last_snoc in Hw. by injection Hw as <-.
        + unfold Digests. rewrite fmap_length. done.
        + intros j u Hu. pose proof (lookup_lt_Some _ _ _ Hu) as Hj. destruct (lookup_lt_is_Some_2 ws j ltac:(lia)) as [w Hw]. destruct (lookup_lt_is_Some_2 p j ltac:(lia)) as [i Hi].
          unfold Digests, T. rewrite list_lookup_fmap, (proj2 (lookup_zip_with_Some _ _ _ _ (w, i))) by eauto. cbn. f_equal. apply (Hhash j w u i); done.
        + rewrite Htakep. exact Haggv.
        + rewrite app_nil_r. by apply Hsumv.
        + exists zc, m. split; [done|]. split; [done|]. apply He5; [done|]. rewrite app_nil_r, take_ge by (rewrite fmap_length; unfold n; lia). done.
        + intros w i Hw Hi. rewrite app_nil_r, Ews, last_snoc in Hw. injection Hw as <-. rewrite Ep, last_snoc in Hi. injection Hi as <-. rewrite HPP.
          rewrite Forall_forall in Hok. destruct (Hok wl) as [HVl _]; [rewrite Ews; apply elem_of_app; right; left|].
          apply (open_verifies F α wl il); [lia|rewrite HVl; apply commit_spec; [apply values_vec_length|lia]|]. rewrite open_spec by (rewrite ?values_vec_length; lia). rewrite nth_lookup, Hvl. done.
    Qed.
  End Run.
End Liability.

(** What a successful run of ProveLiability returns in an honest state *)
Lemma honest_chain {C : Curve} F α (pp : PolPP C) rnd order id2path pathof cs ls id p z : honest_state F α pp rnd order id2path pathof cs ls id p z ->
  (2 <= length p)%nat /\ id2path id = Ret p /\ (exists k, params_ok F α (length p) k pp) /\ exists ws, VGet (C:=C) id2path (ls_tree ls) id = Ret (Some (z, ws)) /\ chain F α p ws z /\
    exists w0, ws !! 0%nat = Some w0 /\ stored (vs_db (vt_state (ls_tree ls))) "" w0.
Proof.
  intros (H1 & [k H2] & H3 & H4 & H5 & H6 & H7 & H8). split; [done|]. split; [done|]. split; [by exists k|]. apply (run_chain F α pp rnd order id2path pathof (length p) cs); try done. by apply (params_ok_tree _ _ (length p) k).
Qed.
Lemma chain_proof {C : Curve} F α k (pp : PolPP C) id2path ls id p z ws w0 co z' lp : (2 <= length p)%nat -> id2path id = Ret p -> params_ok F α (length p) k pp ->
  VGet (C:=C) id2path (ls_tree ls) id = Ret (Some (z, ws)) -> chain F α p ws z -> ws !! 0%nat = Some w0 -> stored (vs_db (vt_state (ls_tree ls))) "" w0 -> coins_fit pp co ->
  ProveLiability pp id2path co ls id = Ret (Some (z', lp)) ->
  z' = z /\ exists ws w0, chain F α p ws z /\ ws !! 0%nat = Some w0 /\ stored (vs_db (vt_state (ls_tree ls))) "" w0 /\ lp_V lp = v_V <$> ws /\
    lp_W lp = commitment (F + 2) α <$> (digests_vec F <$> take (length p - 1) ws) /\ tp_Sum (lp_Liability lp) = z /\
    exists W, v_W w0 = Some W /\
    (nonzero (concat (zip_with (range_challenges (po_RPPP pp)) (lp_RangeProofs lp) (lp_V lp)) ++ sum_challenges (po_SAPP pp) (lp_sum lp) ++ eq_challenges (po_POEPP pp) (lp_Eq lp)) ->
     accepted pp p (v_V w0) W lp).
Proof.
  intros Hn Hid Hp HG Hch Hw0 Hs0 Hco HPL.
  destruct (run_ranges F α k pp p ws z co Hp Hn Hch Hco) as (rps & Lr & Hrps).
  pose proof (ch_len _ _ _ _ _ Hch) as Lw. 
  assert (HR : forall i w rp, ws !! i = Some w -> rps !! i = Some rp -> ProveRange (po_RPPP pp) (v_V w) (Vertex_Values w (F + 1)) (v_bf w) (pc_range co i) = Ret rp).
  { intros i w rp Hw Hrp. pose proof HPL as HP. unfold ProveLiability in HP. rewrite Hid in HP. cbn [rbind] in HP. rewrite HG in HP. cbn [rbind] in HP. rewrite (proj2 (Nat.leb_le 1 (length p))) in HP by lia.
    apply rbind_inv in HP as (vs & _ & HP). apply rbind_inv in HP as (rps' & HP & _). pose proof (lookup_lt_Some _ _ _ Hw) as Hi.
    destruct (mapM_lookup _ _ _ i i HP) as (rp' & Hrp' & Hf); [apply lookup_seq; lia|]. unfold idx in Hf. rewrite Hw in Hf. cbn [rbind] in Hf. unfold prove_range_of in Hf. rewrite (pp_fanout F α _ k pp Hp) in Hf.
    destruct (Hrps i w rp Hw Hrp) as [(ipaPP & Hun) _]. rewrite Hf. unfold ProveRange in Hf. rewrite Hun in Hf. cbn [rbind] in Hf. apply rbind_inv in Hf as (e & _ & Hf). destruct e; [|done]. congruence. }
  destruct (run_proof F α k pp p ws z co Hp Hn Hch Hco rps ls id id2path Lr HR Hid HG) as (Σ & π & sumArg & Dg & eqp & πX & w0' & d0 & Hrun & Hw0' & Hd0 & HW0 & _ & _ & _ & Hacc).
  rewrite Hw0 in Hw0'. injection Hw0' as <-. rewrite HPL in Hrun. injection Hrun as -> ->. split; [done|].
  exists ws, w0. split_and!; try done. exists (commitment (F + 2) α d0). split; [done|]. cbn [lp_RangeProofs lp_V lp_sum lp_Eq]. intros Hnz. apply Forall_app in Hnz as [Hnz1 Hnz2].
  apply Hacc; [|done]. intros i w rp Hw Hrp. apply (Hrps i w rp Hw Hrp). apply (nonzero_concat _ _ _ i rp (v_V w) Hnz1 Hrp). rewrite list_lookup_fmap, Hw. done.
Qed.
Lemma honest_proof {C : Curve} F α (pp : PolPP C) rnd order id2path pathof cs ls id p z co z' lp : honest_state F α pp rnd order id2path pathof cs ls id p z -> coins_fit pp co ->
  ProveLiability pp id2path co ls id = Ret (Some (z', lp)) ->
  z' = z /\ exists ws w0, chain F α p ws z /\ ws !! 0%nat = Some w0 /\ stored (vs_db (vt_state (ls_tree ls))) "" w0 /\ lp_V lp = v_V <$> ws /\
    lp_W lp = commitment (F + 2) α <$> (digests_vec F <$> take (length p - 1) ws) /\ tp_Sum (lp_Liability lp) = z /\
    exists W, v_W w0 = Some W /\
    (nonzero (concat (zip_with (range_challenges (po_RPPP pp)) (lp_RangeProofs lp) (lp_V lp)) ++ sum_challenges (po_SAPP pp) (lp_sum lp) ++ eq_challenges (po_POEPP pp) (lp_Eq lp)) ->
     accepted pp p (v_V w0) W lp).
Proof.
  intros Hh Hco HPL. destruct (honest_chain F α pp rnd order id2path pathof cs ls id p z Hh) as (Hn & Hid & [k Hp] & ws & HG & Hch & w0 & Hw0 & Hs0).
  exact (chain_proof F α k pp id2path ls id p z ws w0 co z' lp Hn Hid Hp HG Hch Hw0 Hs0 Hco HPL).
Qed.

(** ** C53 *)
(** The challenges of the range proofs, the sum argument and the equality argument of a proof, as replayed by the verifier *)
Definition proof_challenges {C : Curve} (pp : PolPP C) (lp : LiabilityProof C) : list Zr :=
  concat (zip_with (range_challenges (po_RPPP pp)) (lp_RangeProofs lp) (lp_V lp)) ++
  sum_challenges (po_SAPP pp) (lp_sum lp) ++ eq_challenges (po_POEPP pp) (lp_Eq lp).
(** Whatever proof is returned is one of the right liability, and accepted against the current root. *)
Theorem C53_accepted (C : Curve) F α (pp : PolPP C) rnd order id2path pathof cs ls id p z co z' lp :
  honest_state F α pp rnd order id2path pathof cs ls id p z -> coins_fit pp co ->
  ProveLiability pp id2path co ls id = Ret (Some (z', lp)) ->
  z' = z /\ tp_Sum (lp_Liability lp) = z /\
  exists V W, current_root ls V (Some W) /\
    (nonzero (proof_challenges pp lp) -> LiabilityProof_Verify lp pp id V W id2path = Ret nil_error).
Proof.
  intros Hh Hco HPL. destruct (honest_proof F α pp rnd order id2path pathof cs ls id p z co z' lp Hh Hco HPL) as (-> & ws & w0 & _ & _ & Hs & _ & _ & Hsum & W & HW & Hacc).
  split; [done|]. split; [done|]. exists (v_V w0), W. split; [by exists w0|]. intros Hnz. apply C55_acceptance. exists p. split; [apply Hh|]. apply Hacc. exact Hnz.
Qed.
(** A proof is returned, unless a challenge of one of the range proofs is zero.  [ProveRange_unchecked] is the range prover
    without its last step, in which it verifies its own inner-product proof. *)
Theorem C53_returned (C : Curve) F α (pp : PolPP C) rnd order id2path pathof cs ls id p z co :
  honest_state F α pp rnd order id2path pathof cs ls id p z -> coins_fit pp co ->
  exists ws rps, VGet (C:=C) id2path (ls_tree ls) id = Ret (Some (z, ws)) /\ length ws = length p /\ length rps = length p /\
    (forall i w rp, ws !! i = Some w -> rps !! i = Some rp ->
       exists ipaPP, ProveRange_unchecked (po_RPPP pp) (v_V w) (Vertex_Values w (F + 1)) (v_bf w) (pc_range co i) = Ret (rp, ipaPP)) /\
    (nonzero (concat (zip_with (range_challenges (po_RPPP pp)) rps (v_V <$> ws))) ->
     exists lp, ProveLiability pp id2path co ls id = Ret (Some (z, lp)) /\ lp_RangeProofs lp = rps).
Proof.
  intros Hh Hco. destruct (honest_chain F α pp rnd order id2path pathof cs ls id p z Hh) as (Hn & Hid & [k Hp] & ws & HG & Hch & w0 & Hw0 & Hs0).
  destruct (run_ranges F α k pp p ws z co Hp Hn Hch Hco) as (rps & Lr & Hrps). exists ws, rps. split; [done|]. split; [by apply (ch_len _ _ _ _ _ Hch)|]. split; [done|].
  split; [intros i w rp Hw Hrp; by apply (Hrps i w rp Hw Hrp)|]. intros Hnz.
  assert (HR : forall i w rp, ws !! i = Some w -> rps !! i = Some rp -> ProveRange (po_RPPP pp) (v_V w) (Vertex_Values w (F + 1)) (v_bf w) (pc_range co i) = Ret rp).
  { intros i w rp Hw Hrp. apply (Hrps i w rp Hw Hrp). apply (nonzero_concat _ _ _ i rp (v_V w) Hnz Hrp). rewrite list_lookup_fmap, Hw. done. }
  destruct (run_proof F α k pp p ws z co Hp Hn Hch Hco rps ls id id2path Lr HR Hid HG) as (Σ & π & sumArg & Dg & eqp & πX & w0' & d0 & Hrun & _).
  eexists. split; [exact Hrun|done].
Qed.
(** With generated parameters and a root asked for the first time: everything a client sees fits together. *)
Theorem C53_generated (C : Curve) f t α g (pp : PolPP C) fuel rnd order pathof n cs ls ls' id p z co z' lp V W :
  supported f t -> GeneratePublicParams f t α = Ret (g, pp) -> full_path_length f t n ->
  fixed_paths (Z.to_nat f) (g fuel) pathof n (sets cs) -> set_run pp rnd order (g fuel) cs ls -> CRoot ∉ cs ->
  (total_of (Z.to_nat f) n pathof cs < 2 ^ 63)%Z ->
  g fuel id = Ret p -> length p = n -> latest pathof (sets cs) p = Some z -> bottom_set_once pathof cs p -> coins_fit pp co ->
  ProveLiability pp (g fuel) co ls id = Ret (Some (z', lp)) -> Root (C:=C) ls = Ret (ls', Some (V, W)) ->
  z' = z /\ exists W', W = Some W' /\
    (nonzero (proof_challenges pp lp) -> LiabilityProof_Verify lp pp id V W' (g fuel) = Ret nil_error).
Proof.
  intros Hs HG Hfl Hf Hr Hc Htot Hid Hl Hz Hone Hco HPL HR. destruct (generate_spec (C:=C) f t α Hs) as (n' & g' & pp' & k & HG' & Hfl' & Hn & Hp & _). rewrite HG in HG'. injection HG' as <- <-.
  assert (n' = n) as -> by (destruct t; cbn in Hfl, Hfl'; congruence).
  assert (Hh : honest_state (Z.to_nat f) α pp rnd order (g fuel) pathof cs ls id p z). { unfold honest_state. rewrite Hl. split_and!; try done; [lia|by exists k]. }
  destruct (C53_accepted C _ α pp rnd order _ pathof cs ls id p z co z' lp Hh Hco HPL) as (-> & _ & V1 & W1 & Hroot & Hv). split; [done|].
  assert (Hne : sets cs <> []). { intros E. apply latest_elem in Hz as (id' & Hin & _). rewrite E in Hin. by apply elem_of_nil in Hin. }
  destruct (C52_first_call C (Z.to_nat f) α pp rnd order (g fuel) pathof n cs ls) as (ls1 & V2 & W2 & HR2 & Hroot2); try done; [by apply (params_ok_tree _ _ n k)|lia|].
  rewrite HR in HR2. injection HR2 as <- <- <-. destruct Hroot as (w & Hw & <- & HW), Hroot2 as (w2 & Hw2 & <- & <-). rewrite (stored_fun _ _ _ _ Hw2 Hw), HW. exists W1. done.
Qed.

(** ** C56 *)
(** Any accepted proof of an honest prover becomes an accepted proof of the liability X against the same root once a
    commitment of the cheater's own is appended and the sum argument is redone over all of them.  [fake]: X at the index
    of the client, X as the sum, no blinding. *)
Definition fake_vector (F : nat) (i : nat) (X : Z) : list Zr := ((fun j => if decide (j = i) then zr X else 0) <$> seq 0 F) ++ [zr X; 0].
Definition fake_vertex {C : Curve} (F : nat) (α : Zr) (i : nat) (X : Z) : Vertex C :=
  MkVertex 0 {[i := zr X]} ∅ (zr X) (commitment (F + 2) α (fake_vector F i X)) None.
Lemma fake_values {C : Curve} F α i X : values_vec F (fake_vertex (C:=C) F α i X) = fake_vector F i X.
Proof.
  unfold values_vec, fake_vector. f_equal. apply list_fmap_ext. intros _ j _. cbn. destruct (decide (j = i)) as [->|]; [by rewrite lookup_singleton|by rewrite lookup_singleton_ne].
Qed.
Lemma zsum_single (F i : nat) (x : Zr) : (i < F)%nat -> zsum ((fun j => if decide (j = i) then x else 0) <$> seq 0 F) = x.
Proof.
  intros Hi. rewrite (seq_split i F Hi), fmap_app, zsum_app, fmap_cons. cbn [zsum]. rewrite decide_True by done.
  assert (E : forall l, i ∉ l -> zsum ((fun j => if decide (j = i) then x else 0) <$> l) = 0).
  { induction l as [|j l IH]; intros Hl; [done|]. apply not_elem_of_cons in Hl as [H1 H2]. rewrite fmap_cons. cbn [zsum]. rewrite decide_False by done. rewrite IH by done. ring. }
  rewrite !E by (rewrite elem_of_seq; lia). ring.
Qed.
Lemma fake_ok {C : Curve} F α i X : (i < F)%nat -> vertex_ok F α (fake_vertex (C:=C) F α i X).
Proof.
  intros Hi. split; [rewrite fake_values; done|]. exists ((fun j => if decide (j = i) then zr X else 0) <$> seq 0 F). rewrite Vertex_Values_spec. rewrite zsum_single by done. f_equal.
  apply list_fmap_ext. intros _ j _. cbn. destruct (decide (j = i)) as [->|]; [by rewrite lookup_singleton|by rewrite lookup_singleton_ne].
Qed.
Theorem C56_any_liability (C : Curve) F α (pp : PolPP C) rnd order id2path pathof cs ls id p z co z' lp V W (X : Z) :
  honest_state F α pp rnd order id2path pathof cs ls id p z -> coins_fit pp co ->
  ProveLiability pp id2path co ls id = Ret (Some (z', lp)) -> LiabilityProof_Verify lp pp id V W id2path = Ret nil_error ->
  exists i fake π, last p = Some i /\ Commit (po_PPPP pp) (fake_vector F i X) = Ret fake /\ Open (po_PPPP pp) i (fake_vector F i X) = Ret (zr X, π) /\
  exists v r, forall w r', length w = length (sp_H (po_SAPP pp)) ->
    exists s, sum_NewAggregatedArgument (po_SAPP pp) (lp_V lp ++ [fake]) v r w r' = Ret s /\
    (nonzero (sum_challenges (po_SAPP pp) s) ->
     LiabilityProof_Verify (MkLP (lp_Σ lp) (lp_π lp) s (lp_V lp ++ [fake]) (lp_W lp) (lp_Digests lp) (lp_RangeProofs lp) (lp_Eq lp) (MkTP π X))
       pp id V W id2path = Ret nil_error).
Proof.
  intros Hh Hco HPL Hver. destruct (honest_proof F α pp rnd order id2path pathof cs ls id p z co z' lp Hh Hco HPL) as (_ & ws & w0 & Hch & Hw0 & Hs & HV & _).
  destruct (honest_chain F α pp rnd order id2path pathof cs ls id p z Hh) as (Hn & Hid & [k Hp] & _).
  apply C55_acceptance in Hver as (p' & Hid' & Hacc). rewrite Hid in Hid'. injection Hid' as <-.
  pose proof Hch as [L Hpath Hok _ _ _ _ _ _]. pose proof Hp as (EF & _ & HFan & HPP & _ & HSP & _).
  destruct (last p) as [i|] eqn:Ei; [|apply last_None in Ei; subst p; cbn in Hn; lia].
  assert (Hi : (i < F)%nat) by (rewrite last_lookup in Ei; rewrite Forall_forall in Hpath; apply Hpath, elem_of_list_lookup; eauto).
  set (fv := fake_vertex (C:=C) F α i X). assert (Hfl : length (fake_vector F i X) = (F + 2)%nat) by (rewrite <- (fake_values (C:=C) F α); apply values_vec_length).
  assert (Hx : fake_vector F i X !! i = Some (zr X)). { unfold fake_vector. rewrite lookup_app_l by (rewrite fmap_length, seq_length; lia). rewrite list_lookup_fmap, lookup_seq_lt by lia. cbn. rewrite decide_True by done. done. }
  assert (Hopen : Open (po_PPPP pp) i (fake_vector F i X) = Ret (zr X, gmul (open_exp (F + 2) α i (fake_vector F i X)) (gen1 C))) by (rewrite HPP, open_spec by (try lia; done); rewrite nth_lookup, Hx; done).
  exists i, (v_V fv), (gmul (open_exp (F + 2) α i (fake_vector F i X)) (gen1 C)). split; [done|]. split; [rewrite HPP; apply commit_spec; [done|lia]|]. split; [done|].
  exists ((fun v => Vertex_Values v (length (sp_H (po_SAPP pp)))) <$> (ws ++ [fv])), (v_bf <$> (ws ++ [fv])). intros w r' Lw. rewrite (proj1 (proj2 HSP)) in Lw.
  destruct (sum_part F α _ k pp Hp (ws ++ [fv]) w r') as (s & Hsum & Hsv); [by destruct ws|apply Forall_app; split; [done|constructor; [by apply fake_ok|constructor]]|done|].
  assert (EV : v_V <$> (ws ++ [fv]) = lp_V lp ++ [v_V fv]) by (rewrite fmap_app, HV; done).
  exists s. unfold SumArgument in Hsum. rewrite EV in Hsum, Hsv. split; [exact Hsum|]. intros Hnz. apply C55_acceptance. exists p. split; [done|].
  assert (LV : length (lp_V lp) = length p) by (rewrite HV, fmap_length; done).
  assert (Hlook : forall j, (j < length p)%nat -> (lp_V lp ++ [v_V fv]) !! j = lp_V lp !! j) by (intros j Hj; apply lookup_app_l; lia).
  destruct Hacc as [A1 A2 A3 A4 A5 A6 A7 A8 A9 A10 A11]. constructor; cbn [lp_W lp_Digests lp_V lp_RangeProofs lp_π lp_Σ lp_sum lp_Eq lp_Liability tp_Sum tp_proof]; try done.
  - rewrite Hlook by lia. done.
  - intros j Hj. rewrite Hlook by lia. by apply A5.
  - intros j Vi Wi Hj. rewrite Hlook by lia. by apply A6.
  - intros Vi. rewrite Hlook by lia. by apply A7.
  - apply Hsv. done.
  - destruct A10 as (zc & m & Z1 & Z2 & Z3). exists zc, m. split; [done|]. split; [done|]. rewrite <- Z3. f_equal. unfold path_equalities. f_equal; f_equal.
    + rewrite take_app_le by lia. done.
    + rewrite drop_app_le by lia. rewrite take_app_le by (rewrite drop_length; lia). done.
  - exists (v_V fv), i. split; [apply last_snoc|]. split; [done|]. rewrite HPP. apply (open_verifies F α fv i); [lia| |].
    + rewrite commit_spec by (rewrite ?values_vec_length; lia). unfold fv. rewrite fake_values. done.
    + unfold fv. rewrite fake_values. rewrite HPP in Hopen. exact Hopen.
Qed.

(** ** C57 *)
(** Any accepted proof of an honest prover becomes an accepted proof against the root (V, W') where W' commits to any vector d
    of digests: only W[0] and the aggregated opening change, the hashes shown stay. *)
Theorem C57_any_root_digests (C : Curve) F α (pp : PolPP C) rnd order id2path pathof cs ls id p z co z' lp V W d :
  honest_state F α pp rnd order id2path pathof cs ls id p z -> coins_fit pp co ->
  ProveLiability pp id2path co ls id = Ret (Some (z', lp)) -> LiabilityProof_Verify lp pp id V W id2path = Ret nil_error ->
  length d = (F + 2)%nat ->
  exists W' Σ' π', Commit (po_PPPP pp) d = Ret W' /\
    LiabilityProof_Verify (MkLP Σ' π' (lp_sum lp) (lp_V lp) (<[0%nat := W']> (lp_W lp)) (lp_Digests lp) (lp_RangeProofs lp) (lp_Eq lp) (lp_Liability lp))
      pp id V W' id2path = Ret nil_error.
Proof.
  intros Hh Hco HPL Hver Hd. destruct (honest_proof F α pp rnd order id2path pathof cs ls id p z co z' lp Hh Hco HPL) as (_ & ws & w0 & Hch & Hw0 & Hs & HV & HW & _).
  destruct (honest_chain F α pp rnd order id2path pathof cs ls id p z Hh) as (Hn & Hid & [k Hp] & _).
  apply C55_acceptance in Hver as (p' & Hid' & Hacc). rewrite Hid in Hid'. injection Hid' as <-.
  pose proof Hch as [L Hpath _ _ _ _ _ _ _]. pose proof Hp as (EF & _ & HFan & HPP & _).
  set (ds := digests_vec F <$> take (length p - 1) ws) in *. assert (Lds : length ds = (length p - 1)%nat) by (unfold ds; rewrite fmap_length, take_length; lia).
  set (ds' := <[0%nat := d]> ds). assert (Lds' : length ds' = (length p - 1)%nat) by (unfold ds'; rewrite insert_length; done).
  destruct (agg_part F α (length p) k pp Hp ds' (take (length p - 1) p)) as (π & _ & Hagg).
  { intros E. rewrite E in Lds'. cbn in Lds'. lia. }
  { apply Forall_insert; [|done]. unfold ds. apply Forall_fmap, Forall_forall. intros w _. apply digests_vec_length. }
  { by apply Forall_take. }
  { rewrite take_length. lia. }
  exists (commitment (F + 2) α d), (dot (zip_with (fun d i => nth i d 0) ds' (take (length p - 1) p)) (agg_ro (C:=C) F α (commitment (F + 2) α <$> ds') <$> seq 0 (length ds'))), π.
  split; [rewrite HPP; apply commit_spec; [done|lia]|].
  assert (EW : <[0%nat := commitment (F + 2) α d]> (lp_W lp) = commitment (F + 2) α <$> ds') by (unfold ds'; rewrite list_fmap_insert, HW; done).
  apply C55_acceptance. exists p. split; [done|]. destruct Hacc as [A1 A2 A3 A4 A5 A6 A7 A8 A9 A10 A11]. constructor; cbn [lp_W lp_Digests lp_V lp_RangeProofs lp_π lp_Σ lp_sum lp_Eq lp_Liability]; try done.
  - rewrite insert_length. done.
  - apply list_lookup_insert. lia.
  - intros j Vj Wj Hj HVj HWj. rewrite list_lookup_insert_ne in HWj by lia. by apply (A6 j Vj Wj).
  - rewrite EW. exact Hagg.
Qed.

(** ** The hypotheses can be met *)
Lemma total_point F p M (z : Z) : Forall (fun i => i < F)%nat p ->
  total F (length p) (fun q => if decide (p = q) then Some z else M q) = (total F (length p) M + z - default 0 (M p))%Z.
Proof.
  intros Hp. revert M. induction Hp as [|i p Hi Hp IH]; intros M.
  - cbn [length]. rewrite !total_0. rewrite decide_True by done. change (default 0%Z (Some z)) with z. lia.
  - cbn [length]. rewrite (total_upd F (length p) M _ i Hi) by (intros j q Hj _; rewrite decide_False by congruence; done).
    rewrite (total_ext _ _ (fun q => if decide (i :: p = i :: q) then Some z else M (i :: q)) (fun q => if decide (p = q) then Some z else M (i :: q))).
    + rewrite (IH (fun q => M (i :: q))). lia.
    + intros q _. destruct (decide (p = q)) as [->|]; [by rewrite decide_True|rewrite decide_False by congruence; done].
Qed.
Lemma toy_proof_challenges (pp : PolPP toy) lp : nonzero (proof_challenges pp lp).
Proof.
  unfold proof_challenges. apply Forall_app. split; [|apply Forall_app; split; apply toy_chal].
  generalize (lp_V lp). induction (lp_RangeProofs lp) as [|rp l IH]; intros [|V k]; [constructor..|]. cbn [zip_with concat]. apply Forall_app. split; [apply toy_range_challenges|apply IH].
Qed.
Definition ex_dense : list call := [CSet "123456789" 5; CSet "987654321" 7].
Definition ex_coins (pp : PolPP toy) : ProofCoins :=
  MkPC (fun _ => toy_coins (length (rp_Gs (po_RPPP pp)))) (replicate (length (sp_H (po_SAPP pp))) (zr 3)) (zr 4)
    (replicate (length (pe_G (po_POEPP pp))) (zr 1, zr 2, zr 3)) (zr 6) (zr 7).
Lemma ex_coins_fit pp : coins_fit pp (ex_coins pp).
Proof. split; [intros; apply toy_coins_ok|]. unfold ex_coins. cbn [pc_w pc_eq]. rewrite !replicate_length. done. Qed.
Lemma ex_dense_path1 : digit_path 7 "123456789" = Ret [1;2;2;6;3;2;6;2;0;3;0]%nat. Proof. done. Qed.
Lemma ex_dense_path2 : digit_path 7 "987654321" = Ret [3;4;4;1;3;6;1;2;3;3;3]%nat. Proof. vm_compute. done. Qed.

Definition ex_dense_p1 : path := [1;2;2;6;3;2;6;2;0;3;0]%nat.
Definition ex_dense_p2 : path := [3;4;4;1;3;6;1;2;3;3;3]%nat.
Definition ex_dense_paths (id : string) : path := if decide (id = "123456789"%string) then ex_dense_p1 else ex_dense_p2.
Lemma ex_dense_fixed h : h = [("123456789"%string, 5%Z)] \/ h = [("123456789"%string, 5%Z); ("987654321"%string, 7%Z)] -> fixed_paths 7 (digit_path 7) ex_dense_paths 11 h.
Proof.
  intros Hh. split; [done|]. intros id z Hin. assert (id = "123456789"%string \/ id = "987654321"%string) as [-> | ->].
  { destruct Hh as [->| ->]; repeat (apply elem_of_cons in Hin as [[= -> ->]|Hin]; [auto|]); by apply elem_of_nil in Hin. }
  - split; [apply ex_dense_path1|]. split; [done|]. unfold ex_dense_paths. rewrite decide_True by done. unfold ex_dense_p1. repeat (apply Forall_cons; split; [lia|]). constructor.
  - split; [apply ex_dense_path2|]. split; [done|]. unfold ex_dense_paths. rewrite decide_False by done. unfold ex_dense_p2. repeat (apply Forall_cons; split; [lia|]). constructor.
Qed.
Lemma ex_dense_total : total_of 7 11 ex_dense_paths ex_dense = 12%Z.
Proof.
  unfold total_of. change (sets ex_dense) with (([] ++ [("123456789"%string, 5%Z)]) ++ [("987654321"%string, 7%Z)]).
  rewrite (total_ext 7 11 _ (fun q => if decide (ex_dense_p2 = q) then Some 7%Z else if decide (ex_dense_p1 = q) then Some 5%Z else None)).
  - change 11%nat with (length ex_dense_p2) at 1. rewrite total_point by (unfold ex_dense_p2; repeat (apply Forall_cons; split; [lia|]); constructor).
    change (length ex_dense_p2) with (length ex_dense_p1). rewrite (total_point 7 ex_dense_p1 (fun _ => None)) by (unfold ex_dense_p1; repeat (apply Forall_cons; split; [lia|]); constructor).
    rewrite decide_False by done. rewrite total_empty by done. done.
  - intros q _. rewrite !latest_snoc. done.
Qed.
(** A dense tree with fanout 7, two liabilities: parameters, state, root, proof, and its acceptance *)
Lemma ex_dense_run : exists (pp : PolPP toy) g ls ls' V W lp, GeneratePublicParams 7 Dense (zr 5) = Ret (g, pp) /\ (forall fuel, g fuel = digit_path 7) /\
  set_run pp ex_rnd ex_order (digit_path 7) ex_dense ls /\ honest_state 7 (zr 5) pp ex_rnd ex_order (digit_path 7) ex_dense_paths ex_dense ls "123456789" ex_dense_p1 5 /\
  Root (C:=toy) ls = Ret (ls', Some (V, Some W)) /\ ProveLiability pp (digit_path 7) (ex_coins pp) ls "123456789" = Ret (Some (5%Z, lp)) /\
  LiabilityProof_Verify lp pp "123456789" V W (digit_path 7) = Ret nil_error.
Proof.
  assert (Hsup : supported 7 Dense) by (exists 3%Z; done).
  destruct (generate_spec (C:=toy) 7 Dense (zr 5) Hsup) as (n & g & pp & k & HG & Hfl & _ & Hp & (h & Hh & Hg) & _).
  rewrite (DigitPath_pow2 3 ltac:(lia) : DigitPath 7 = Ret (digit_path 7)) in Hh. injection Hh as <-.
  assert (n = 11%nat) as -> by (assert (E : full_path_length 7 Dense 11) by done; unfold full_path_length in Hfl, E; congruence).
  change (Z.to_nat 7) with 7%nat in Hp. pose proof (params_ok_tree _ _ _ _ _ Hp) as Ht.
  assert (H0 : set_run pp ex_rnd ex_order (digit_path 7) [] (NewLiabilitySet ∅)) by (split; [apply ex_order_perm|exists ∅; done]).
  destruct (C44_set_never_fails toy 7 (zr 5) pp ex_rnd ex_order (digit_path 7) ex_dense_paths 11 [] (NewLiabilitySet ∅) "123456789" 5 Ht) as [ls1 Hls1]; [apply ex_dense_fixed; auto|exact H0|done|].
  assert (H1 : set_run pp ex_rnd ex_order (digit_path 7) [CSet "123456789" 5] ls1) by (apply (set_run_app _ _ _ _ [] _ _ _ H0); cbn [do_calls do_call]; rewrite Hls1; exact Logic.eq_refl).
  destruct (C44_set_never_fails toy 7 (zr 5) pp ex_rnd ex_order (digit_path 7) ex_dense_paths 11 [CSet "123456789" 5] ls1 "987654321" 7 Ht) as [ls Hls]; [apply ex_dense_fixed; auto|exact H1|done|].
  assert (H2 : set_run pp ex_rnd ex_order (digit_path 7) ex_dense ls) by (apply (set_run_app _ _ _ _ [CSet "123456789" 5] [CSet "987654321" 7] _ _ H1); cbn [do_calls do_call]; rewrite Hls; exact Logic.eq_refl).
  assert (Hf : fixed_paths 7 (digit_path 7) ex_dense_paths 11 (sets ex_dense)) by (apply ex_dense_fixed; auto).
  assert (Hhon : honest_state 7 (zr 5) pp ex_rnd ex_order (digit_path 7) ex_dense_paths ex_dense ls "123456789" ex_dense_p1 5).
  { unfold honest_state. change (length ex_dense_p1) with 11%nat. split; [lia|]. split; [by exists k|]. split; [exact Hf|]. split; [exact H2|]. split; [rewrite ex_dense_total; lia|]. split; [exact ex_dense_path1|].
    split; [vm_compute; done|]. vm_compute. done. }
  destruct (C53_returned toy 7 (zr 5) pp ex_rnd ex_order (digit_path 7) ex_dense_paths ex_dense ls _ _ _ (ex_coins pp) Hhon (ex_coins_fit pp)) as (ws & rps & _ & _ & _ & _ & HPL).
  destruct HPL as (lp & HPL & _).
  { generalize (v_V <$> ws). induction rps as [|rp l IH]; intros [|V k']; [constructor..|]. cbn [zip_with concat]. apply Forall_app. split; [apply toy_range_challenges|apply IH]. }
  destruct (C52_first_call toy 7 (zr 5) pp ex_rnd ex_order (digit_path 7) ex_dense_paths 11 ex_dense ls Ht Hf ltac:(lia) H2) as (ls' & V & W & HR & _); [done|unfold ex_dense; intros Hin; repeat (apply elem_of_cons in Hin as [Hin|Hin]; [discriminate Hin|]); by apply elem_of_nil in Hin|].
  assert (Hg' : forall fuel, g fuel = digit_path 7) by (intros; rewrite Hg; done).
  destruct (C53_generated toy 7 Dense (zr 5) g pp 0 ex_rnd ex_order ex_dense_paths 11 ex_dense ls ls' "123456789" ex_dense_p1 5 (ex_coins pp) 5 lp V W Hsup HG Hfl) as (_ & W' & -> & Hv);
    try (rewrite Hg'); [exact Hf|exact H2|unfold ex_dense; intros Hin; repeat (apply elem_of_cons in Hin as [Hin|Hin]; [discriminate Hin|]); by apply elem_of_nil in Hin|
      change (Z.to_nat 7) with 7%nat; rewrite ex_dense_total; lia|exact ex_dense_path1|done|vm_compute; done|vm_compute; done|apply ex_coins_fit|exact HPL|exact HR|].
  exists pp, g, ls, ls', V, W', lp. split; [exact HG|]. split; [exact Hg'|]. split; [exact H2|]. split; [exact Hhon|]. split; [exact HR|]. split; [exact HPL|]. rewrite Hg' in Hv. apply Hv, toy_proof_challenges.
Qed.
Example C53_nonvacuous : exists (pp : PolPP toy) g ls ls' V W lp, supported 7 Dense /\ GeneratePublicParams 7 Dense (zr 5) = Ret (g, pp) /\ full_path_length 7 Dense 11 /\
  honest_state 7 (zr 5) pp ex_rnd ex_order (g 0%nat) ex_dense_paths ex_dense ls "123456789" ex_dense_p1 5 /\ CRoot ∉ ex_dense /\ coins_fit pp (ex_coins pp) /\
  ProveLiability pp (g 0%nat) (ex_coins pp) ls "123456789" = Ret (Some (5%Z, lp)) /\ Root (C:=toy) ls = Ret (ls', Some (V, Some W)) /\
  nonzero (proof_challenges pp lp) /\ LiabilityProof_Verify lp pp "123456789" V W (g 0%nat) = Ret nil_error.
Proof.
  assert (Hsup : supported 7 Dense) by (exists 3%Z; done).
  destruct ex_dense_run as (pp & g & ls & ls' & V & W & lp & H1 & H2 & H3 & H4 & H5 & H6 & H7). exists pp, g, ls, ls', V, W, lp. rewrite H2.
  split; [exact Hsup|]. split; [exact H1|]. split; [done|]. split; [exact H4|]. split; [unfold ex_dense; intros Hin; repeat (apply elem_of_cons in Hin as [Hin|Hin]; [discriminate Hin|]); by apply elem_of_nil in Hin|].
  split; [apply ex_coins_fit|]. split; [exact H6|]. split; [exact H5|]. split; [apply toy_proof_challenges|exact H7].
Qed.
Example C55_nonvacuous : exists (pp : PolPP toy) p V W lp, accepted pp p V W lp /\ length p = 11%nat /\ tp_Sum (lp_Liability lp) = 5%Z.
Proof.
  destruct ex_dense_run as (pp & g & ls & ls' & V & W & lp & H1 & H2 & H3 & H4 & H5 & H6 & H7). exists pp, ex_dense_p1, V, W, lp.
  apply C55_acceptance in H7 as (p & Hp & H7). rewrite ex_dense_path1 in Hp. assert (ex_dense_p1 = p) as <- by (injection Hp; done). split; [exact H7|]. split; [done|].
  apply (C53_accepted toy 7 (zr 5) pp ex_rnd ex_order (digit_path 7) ex_dense_paths ex_dense ls _ _ _ (ex_coins pp) 5 lp H4 (ex_coins_fit pp) H6).
Qed.
(** The true liability is 5; 1000000 is accepted too, also though the total is 12. *)
Example C56_nonvacuous : exists (pp : PolPP toy) ls ls' V W lp lp', honest_state 7 (zr 5) pp ex_rnd ex_order (digit_path 7) ex_dense_paths ex_dense ls "123456789" ex_dense_p1 5 /\
  coins_fit pp (ex_coins pp) /\ ProveLiability pp (digit_path 7) (ex_coins pp) ls "123456789" = Ret (Some (5%Z, lp)) /\ Root (C:=toy) ls = Ret (ls', Some (V, Some W)) /\
  LiabilityProof_Verify lp pp "123456789" V W (digit_path 7) = Ret nil_error /\
  LiabilityProof_Verify lp' pp "123456789" V W (digit_path 7) = Ret nil_error /\ tp_Sum (lp_Liability lp') = 1000000%Z.
Proof.
  destruct ex_dense_run as (pp & g & ls & ls' & V & W & lp & H1 & H2 & H3 & H4 & H5 & H6 & H7).
  destruct (C56_any_liability toy 7 (zr 5) pp ex_rnd ex_order (digit_path 7) ex_dense_paths ex_dense ls _ _ _ (ex_coins pp) 5 lp V W 1000000 H4 (ex_coins_fit pp) H6 H7) as (i & fake & π & _ & _ & _ & v & r & Hs).
  destruct (Hs (pc_w (ex_coins pp)) (zr 9)) as (s & _ & Hv); [apply ex_coins_fit|]. eexists pp, ls, ls', V, W, lp, _.
  split; [exact H4|]. split; [apply ex_coins_fit|]. split; [exact H6|]. split; [exact H5|]. split; [exact H7|]. split; [apply Hv; apply toy_chal|done].
Qed.
(** With the vector of zeros as the digests of the root *)
Example C57_nonvacuous : exists (pp : PolPP toy) ls ls' V W lp lp' W', honest_state 7 (zr 5) pp ex_rnd ex_order (digit_path 7) ex_dense_paths ex_dense ls "123456789" ex_dense_p1 5 /\
  coins_fit pp (ex_coins pp) /\ ProveLiability pp (digit_path 7) (ex_coins pp) ls "123456789" = Ret (Some (5%Z, lp)) /\ Root (C:=toy) ls = Ret (ls', Some (V, Some W)) /\
  LiabilityProof_Verify lp pp "123456789" V W (digit_path 7) = Ret nil_error /\
  Commit (po_PPPP pp) (zeros 9) = Ret W' /\ LiabilityProof_Verify lp' pp "123456789" V W' (digit_path 7) = Ret nil_error.
Proof.
  destruct ex_dense_run as (pp & g & ls & ls' & V & W & lp & H1 & H2 & H3 & H4 & H5 & H6 & H7).
  destruct (C57_any_root_digests toy 7 (zr 5) pp ex_rnd ex_order (digit_path 7) ex_dense_paths ex_dense ls _ _ _ (ex_coins pp) 5 lp V W (zeros 9) H4 (ex_coins_fit pp) H6 H7) as (W' & Σ & π & HW & Hv); [done|].
  eexists pp, ls, ls', V, W, lp, _, W'. split; [exact H4|]. split; [apply ex_coins_fit|]. split; [exact H6|]. split; [exact H5|]. split; [exact H7|]. split; [exact HW|exact Hv].
Qed.

Print Assumptions C53_accepted.
Print Assumptions C53_returned.
Print Assumptions C53_generated.
Print Assumptions C56_any_liability.
Print Assumptions C57_any_root_digests.
