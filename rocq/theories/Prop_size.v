(** The sizes reported by the Size methods of proofs and parameters: C81. *)
From Verif Require Import Hiding Pol_params Pol_run Pol_chain Prop_set Prop_verkle Prop_range Prop_sum Prop_poe Prop_accept Prop_liability Prop_update Toy.
Local Open Scope Zr_scope.

(** ** What a size is *)
(** [fields g s] is the number of bytes of g group elements and s scalars. *)
Definition fields (C : Curve) (g s : nat) : nat := (g * g1_len C + 32 * s)%nat.
(** An inner product proof over 2^k generators: L and R of each round and P; a, b and C *)
Definition ipp_size (C : Curve) (k : nat) : nat := fields C (2 * k + 1) 3.
(** A range proof for vectors of 2^k entries: the reduction has k rounds of three points; the inner product proof is over
    2^k * 64 generators *)
Definition range_size (C : Curve) (k : nat) : nat := (fields C (3 * k + 5) 5 + ipp_size C (k + 6))%nat.
(** The argument for 2^j equalities *)
Definition eq_size (C : Curve) (j : nat) : nat := (fields C (2 * 2 ^ j + 3) 2 + ipp_size C j)%nat.
(** A liability proof for a path of n entries and fanout 2^k - 1 *)
Definition rounds (n : nat) : nat := Nat.max 1 (Nat.log2_up (n - 1)).
Definition liability_size (C : Curve) (k n : nat) : nat :=
  (fields C (2 * n + 1) (n + 3) + n * range_size C k + eq_size C (rounds n))%nat.

(** ** Lengths of what the provers return *)
Ltac inv_ret H := repeat (first [apply rbind_inv in H as (? & ? & H)|progress cbn [fst snd] in H]).
Section Lengths.
  Context {C : Curve}.
  Lemma G1v_Bytes_length (l : list (G1 C)) : length (G1v_Bytes l) = (length l * g1_len C)%nat.
  Proof. unfold G1v_Bytes. induction l as [|P l IH]; [done|]. rewrite fmap_cons. cbn [concat length]. rewrite app_length, enc1_len, IH. lia. Qed.
  Lemma Vec_Size_length l : Vec_Size l = (32 * length l)%nat.
  Proof. unfold Vec_Size, sum_list. induction l as [|x l IH]; [done|]. rewrite fmap_cons. cbn [sum_list_with length]. rewrite IH. unfold id. rewrite Zr_Bytes_length. lia. Qed.

  Lemma ipa_prove_rounds k : forall fuel (pp : bpPP C) a b P g h LRs ab, length g = (2 ^ k)%nat ->
    ipa_prove fuel pp a b P g h = Ret (LRs, ab) -> length LRs = (2 * k)%nat.
  Proof.
    induction k as [|k IH]; intros [|fuel] pp a b P g h LRs ab Hg H; try discriminate H; cbn [ipa_prove] in H.
    - destruct (length g =? length h)%nat; [|discriminate H]. rewrite Hg in H. change (2 ^ 0 =? 1)%nat with true in H. cbn iota in H. inv_ret H. injection H as <- <-. done.
    - destruct (length g =? length h)%nat eqn:E; [|discriminate H]. apply Nat.eqb_eq in E. rewrite Hg, pow2_ne1 in H.
      do 14 (apply rbind_inv in H as (? & ? & H)). apply rbind_inv in H as (np & Hnp & H). do 2 (apply rbind_inv in H as (? & ? & H)). apply rbind_inv in H as ([LRs' ab'] & Hrec & H).
      injection H as <- <-. cbn [fst length]. rewrite next_spec in Hnp by done. injection Hnp as <-. apply IH in Hrec; [lia|]. cbn [np_g]. by apply foldg_length.
  Qed.
  Lemma ipp_size_spec k (arg : IPArgument C) p : length (bp_G (ipa_pp arg)) = (2 ^ k)%nat -> IPA_Prove arg = Ret p -> IPProof_Size p = ipp_size C k.
  Proof.
    intros HG H. unfold IPA_Prove in H. apply rbind_inv in H as ([pp P] & _ & H). apply rbind_inv in H as ([LRs ab] & Hr & H). injection H as <-.
    apply (ipa_prove_rounds k) in Hr; [|done]. unfold IPProof_Size, ipp_size, fields. cbn [ipp_LRs ipp_a ipp_b ipp_P ipp_C]. rewrite G1v_Bytes_length, Hr, enc1_len, !Zr_Bytes_length. lia.
  Qed.
  Lemma recompute_G (pp pp' : bpPP C) : RecomputeDigest pp = Ret pp' -> bp_G pp' = bp_G pp.
  Proof. unfold RecomputeDigest, setupDigest. intros H. apply rbind_inv in H as (? & _ & H). injection H as <-. done. Qed.
  Lemma new_ipa_pp (pp : bpPP C) a b arg : NewInnerProdArgument pp a b = Ret arg -> ipa_pp arg = pp.
  Proof. unfold NewInnerProdArgument. intros H. inv_ret H. injection H as <-. done. Qed.

  Lemma ir_loop_rounds k : forall fuel (pp : bpPP C) G v V Δ xs Δ' xs' v', ir_loop fuel pp (2 ^ k) G v V Δ xs = Ret (Δ', xs', v') -> length Δ' = (length Δ + k + 1)%nat.
  Proof.
    induction k as [|k IH]; intros fuel pp G v V Δ xs Δ' xs' v' H.
    - destruct fuel as [|fuel]; [discriminate H|]. change (2 ^ 0)%nat with 1%nat in H. cbn [ir_loop] in H. do 10 (apply rbind_inv in H as (? & ? & H)). change (1 / 2)%nat with 0%nat in H.
      destruct fuel; cbn [ir_loop] in H; injection H as <- _ _; rewrite app_length; cbn; lia.
    - destruct (pow2_S_pred (S k)) as [m E]. pose proof (half_half_pow k) as Hh. rewrite E in H, Hh. destruct fuel as [|fuel]; [discriminate H|]. cbn [ir_loop] in H. do 10 (apply rbind_inv in H as (? & ? & H)).
      rewrite Hh in H. apply IH in H. rewrite H, app_length. cbn. lia.
  Qed.
  Lemma reduce_rounds k (pp : bpPP C) v V Δ xs u : (1 <= k)%nat -> length (bp_G pp) = (2 ^ k)%nat -> IterativeReduce pp v V = Ret (Δ, xs, u) -> length Δ = k.
  Proof.
    intros Hk HG H. unfold IterativeReduce in H. apply rbind_inv in H as (p2 & _ & H). destruct p2; [|discriminate H]. apply rbind_inv in H as ([[Δ' xs'] v'] & Hl & H).
    destruct (length v' =? 1)%nat; [|discriminate H]. apply rbind_inv in H as (v0 & _ & H). injection H as <- _ _. destruct k as [|k]; [lia|]. rewrite HG, half_half_pow in Hl. apply ir_loop_rounds in Hl. cbn in Hl. lia.
  Qed.
  Lemma triples_size (Δ : list (G1 C * G1 C * G1 C)) : sum_list ((fun d => length (enc1 C d.1.1) + length (enc1 C d.1.2) + length (enc1 C d.2))%nat <$> Δ) = (3 * length Δ * g1_len C)%nat.
  Proof. induction Δ as [|d Δ IH]; [done|]. rewrite fmap_cons. unfold sum_list in *. cbn [sum_list_with length] in *. rewrite IH, !enc1_len. cbn [id]. lia. Qed.
End Lengths.

Lemma pad_rounds n j : (2 <= n)%nat -> (1 <= j < 16)%nat -> (n - 1 <= 2 ^ j)%nat -> pad_to_pow2 (n - 1) = Ret (2 ^ j)%nat -> j = rounds n.
Proof.
  intros Hn Hj Hle Hpad. assert (H15 : (2 ^ j <= 2 ^ 15)%nat) by (apply Nat.pow_le_mono_r; lia).
  destruct (pad_spec (n - 1)) as (j' & Hj' & Hpad' & Hle' & Hmin); [lia|apply Nat2Z.inj_le in H15; rewrite (pow2_nat_Z 15) in H15; change (2 ^ Z.of_nat 15)%Z with 32768%Z in H15; lia|].
  rewrite Hpad in Hpad'. assert (E : (2 ^ j)%nat = (2 ^ j')%nat) by congruence. apply Nat.pow_inj_r in E; [|lia]. subst j'. unfold rounds.
  destruct (decide (n - 1 <= 1)%nat) as [H1|H1].
  - assert (n - 1 = 1)%nat as E1 by lia. rewrite E1. change (Nat.max 1 (Nat.log2_up 1)) with 1%nat. apply Nat.le_antisymm; [|lia]. apply Hmin; [lia|]. rewrite E1. cbn. lia.
  - destruct (Nat.log2_up_spec (n - 1)) as [A B]; [lia|]. assert (P : (0 < Nat.log2_up (n - 1))%nat) by (apply Nat.log2_up_pos; lia). rewrite Nat.max_r by lia. apply Nat.le_antisymm; [by apply Hmin|].
    apply Nat.log2_up_le_pow2; lia.
Qed.

Theorem C81_range_size (C : Curve) k (pp : RPPP C) V v r co rp : params_for k pp -> ProveRange pp V v r co = Ret rp -> RangeProof_Size rp = range_size C k.
Proof.
  intros (Hk & HGs & HHs & _) H. unfold ProveRange in H. apply rbind_inv in H as ([rp0 ipaPP] & HU & H). apply rbind_inv in H as (e & _ & H). destruct e; [|discriminate H]. injection H as ->.
  unfold ProveRange_unchecked in HU.
  repeat (apply rbind_inv in HU as (? & ? & HU); try match type of HU with match ?x with _ => _ end = _ => destruct x as [[? ?] ?] end). injection HU as <- <-.
  match goal with Hr : IterativeReduce ?rdx _ _ = Ret (?Δ, _, _), Hx : ppRdx pp = Ret ?rdx |- _ => rename Hr into Hred, Hx into Hrdx end.
  match goal with Hi : rp_ipaPP pp _ = Ret _, Ha : NewInnerProdArgument _ _ _ = Ret _, Hq : IPA_Prove _ = Ret _ |- _ => rename Hi into Hipp, Ha into Harg, Hq into Hprove end.
  unfold ppRdx in Hrdx. apply rbind_inv in Hrdx as (U0 & _ & Hrdx). apply recompute_G in Hrdx. cbn [bp_G] in Hrdx. apply (reduce_rounds k) in Hred; [|lia|congruence].
  unfold rp_ipaPP in Hipp. apply rbind_inv in Hipp as (U1 & _ & Hipp). apply recompute_G in Hipp. cbn [bp_G] in Hipp. apply new_ipa_pp in Harg.
  apply (ipp_size_spec (k + 6)) in Hprove; [|rewrite Harg, Hipp, HHs, Nat.pow_add_r; done].
  unfold RangeProof_Size, range_size. cbn [rp_τ rp_ρ rp_Q rp_R rp_C1 rp_C2 rp_c rp_Π rp_γ rp_W rp_u rp_Δ]. rewrite triples_size, Hred, Hprove, !Zr_Bytes_length, !enc1_len. unfold fields. lia.
Qed.

Section Parts.
  Context {C : Curve}.
  Lemma eqs_size j (e : Equalities C) vs ws coins r1 r2 p : length (pe_G (es_PP e)) = (2 ^ j)%nat -> length (es_V e) = (2 ^ j)%nat ->
    Equalities_Prove e vs ws coins r1 r2 = Ret p -> AggProof_Size p = eq_size C j.
  Proof.
    intros HG HV H. unfold Equalities_Prove in H. rewrite HV in H. do 3 match type of H with (if ?b then _ else _) = _ => destruct b; [|discriminate H] end.
    apply rbind_inv in H as (vs0 & _ & H). apply rbind_inv in H as (its & Hits & H). apply mapM_length in Hits. rewrite seq_length in Hits.
    repeat (apply rbind_inv in H as (? & ? & H)). injection H as <-.
    match goal with Hi : poe_bpPP _ = Ret _, Ha : NewInnerProdArgument _ _ _ = Ret _, Hq : IPA_Prove _ = Ret _ |- _ => rename Hi into Hipp, Ha into Harg, Hq into Hprove end.
    unfold poe_bpPP in Hipp. apply rbind_inv in Hipp as (U1 & _ & Hipp). apply recompute_G in Hipp. cbn [bp_G] in Hipp. apply new_ipa_pp in Harg.
    apply (ipp_size_spec j) in Hprove; [|cbn [ipa_pp]; rewrite Harg, Hipp; done].
    unfold AggProof_Size, eq_size. cbn [ap_IPP ap_c ap_ρ ap_U ap_V ap_Ω ap_Waggr ap_Vaggr]. rewrite Hprove, !G1v_Bytes_length, !fmap_length, Hits, !Zr_Bytes_length, !enc1_len. unfold fields. lia.
  Qed.
  Lemma sum_inner_size k (pp : sumPP C) V v r w r' s : length (sp_Gs pp) = (2 ^ k)%nat -> sum_NewAggregatedArgument pp V v r w r' = Ret s -> IPProof_Size (sm_π s) = ipp_size C k.
  Proof.
    intros HG H. unfold sum_NewAggregatedArgument in H. repeat (apply rbind_inv in H as (? & ? & H)). unfold sum_NewArgument in H. repeat (apply rbind_inv in H as (? & ? & H)). injection H as <-. cbn [sm_π].
    match goal with Hi : sum_ipaPP _ = Ret _, Ha : NewInnerProdArgument _ _ _ = Ret _, Hq : IPA_Prove _ = Ret _ |- _ => rename Hi into Hipp, Ha into Harg, Hq into Hprove end.
    unfold sum_ipaPP in Hipp. apply recompute_G in Hipp. cbn [bp_G] in Hipp. apply new_ipa_pp in Harg. apply (ipp_size_spec k) in Hprove; [done|]. rewrite Harg, Hipp. done.
  Qed.
  Lemma sum_sizes (rps : list (RangeProof C)) s : Forall (fun rp => RangeProof_Size rp = s) rps -> sum_list (RangeProof_Size <$> rps) = (length rps * s)%nat.
  Proof. unfold sum_list. induction 1 as [|rp rps H _ IH]; [done|]. rewrite fmap_cons. cbn [sum_list_with length]. rewrite IH. unfold id. lia. Qed.
End Parts.

(** ** Everything in a proof *)
Definition ipp_points {C : Curve} (p : IPProof C) : list (G1 C) := ipp_P p :: ipp_LRs p.
Definition ipp_scalars {C : Curve} (p : IPProof C) : list Zr := [ipp_a p; ipp_b p; ipp_C p].
Definition range_points {C : Curve} (p : RangeProof C) : list (G1 C) :=
  [rp_W p; rp_Q p; rp_R p; rp_C1 p; rp_C2 p] ++ ((fun d => d.1.1) <$> rp_Δ p) ++ ((fun d => d.1.2) <$> rp_Δ p) ++ ((fun d => d.2) <$> rp_Δ p) ++ ipp_points (rp_Π p).
Definition range_scalars {C : Curve} (p : RangeProof C) : list Zr := [rp_u p; rp_γ p; rp_c p; rp_τ p; rp_ρ p] ++ ipp_scalars (rp_Π p).
Definition eq_points {C : Curve} (p : AggProof C) : list (G1 C) := [ap_U p; ap_V p; ap_Ω p] ++ ap_Waggr p ++ ap_Vaggr p ++ ipp_points (ap_IPP p).
Definition eq_scalars {C : Curve} (p : AggProof C) : list Zr := [ap_c p; ap_ρ p] ++ ipp_scalars (ap_IPP p).
Definition sum_points {C : Curve} (p : sumProof C) : list (G1 C) := sm_W p :: ipp_points (sm_π p).
Definition sum_scalars {C : Curve} (p : sumProof C) : list Zr := [sm_c p; sm_ρ p] ++ ipp_scalars (sm_π p).
(** All group elements and all scalars of a liability proof (the claimed amount is an int and left out) *)
Definition proof_points {C : Curve} (p : LiabilityProof C) : list (G1 C) :=
  lp_π p :: tp_proof (lp_Liability p) :: lp_V p ++ lp_W p ++ sum_points (lp_sum p) ++ concat (range_points <$> lp_RangeProofs p) ++ eq_points (lp_Eq p).
Definition proof_scalars {C : Curve} (p : LiabilityProof C) : list Zr :=
  lp_Σ p :: lp_Digests p ++ sum_scalars (lp_sum p) ++ concat (range_scalars <$> lp_RangeProofs p) ++ eq_scalars (lp_Eq p).

Section Count.
  Context {C : Curve}.
  Lemma ipp_count (p : IPProof C) : IPProof_Size p = fields C (length (ipp_points p)) (length (ipp_scalars p)).
  Proof. unfold IPProof_Size, fields, ipp_points, ipp_scalars. rewrite G1v_Bytes_length, !Zr_Bytes_length, enc1_len. cbn [length]. lia. Qed.
  Lemma range_count (p : RangeProof C) : RangeProof_Size p = fields C (length (range_points p)) (length (range_scalars p)).
  Proof. unfold RangeProof_Size. rewrite ipp_count, triples_size, !Zr_Bytes_length, !enc1_len. unfold fields, range_points, range_scalars. rewrite !app_length, !fmap_length. cbn [length]. lia. Qed.
  Lemma ranges_count (l : list (RangeProof C)) : sum_list (RangeProof_Size <$> l) = fields C (length (concat (range_points <$> l))) (length (concat (range_scalars <$> l))).
  Proof. unfold sum_list. induction l as [|rp l IH]; [done|]. rewrite !fmap_cons. cbn [sum_list_with concat]. rewrite !app_length, IH. unfold id. rewrite range_count. unfold fields. lia. Qed.
  Lemma eq_count (p : AggProof C) : AggProof_Size p = fields C (length (eq_points p)) (length (eq_scalars p)).
  Proof. unfold AggProof_Size. rewrite ipp_count, !G1v_Bytes_length, !Zr_Bytes_length, !enc1_len. unfold fields, eq_points, eq_scalars. rewrite !app_length. cbn [length]. lia. Qed.
  Lemma proof_count (p : LiabilityProof C) : fields C (length (proof_points p)) (length (proof_scalars p)) = (LiabilityProof_Size p + IPProof_Size (sm_π (lp_sum p)) + g1_len C)%nat.
  Proof.
    unfold LiabilityProof_Size, sumProof_Size. rewrite ranges_count, eq_count, ipp_count, Vec_Size_length, !G1v_Bytes_length, !Zr_Bytes_length, !enc1_len.
    unfold proof_points, proof_scalars, sum_points, sum_scalars, fields. cbn [length]. rewrite !app_length. cbn [length]. rewrite ?app_length. cbn [length]. lia.
  Qed.
End Count.

(** ** C81 *)
(** A state in which the liability was set once is a special case. *)
Lemma honest_recorded {C : Curve} F α (pp : PolPP C) rnd order id2path pathof cs ls id p z : honest_state F α pp rnd order id2path pathof cs ls id p z -> recorded_state F α pp rnd order id2path pathof cs ls id p z.
Proof. intros (A1 & A2 & A3 & A4 & A5 & A6 & A7 & _). unfold recorded_state. auto 10. Qed.
Theorem C81_liability_size (C : Curve) F α (pp : PolPP C) rnd order id2path pathof cs ls id p z co z' lp k :
  recorded_state F α pp rnd order id2path pathof cs ls id p z -> (F + 1 = 2 ^ k)%nat ->
  ProveLiability pp id2path co ls id = Ret (Some (z', lp)) ->
  LiabilityProof_Size lp = liability_size C k (length p) /\
  (* what Size leaves out: the inner product proof of the sum argument, and the opening of the client's amount *)
  fields C (length (proof_points lp)) (length (proof_scalars lp)) = (LiabilityProof_Size lp + ipp_size C k + g1_len C)%nat.
Proof.
  intros Hrec EF HPL. destruct (recorded_chain _ _ _ _ _ _ _ _ _ _ _ _ Hrec) as (k' & ws & Hp & HG & Hch & _). pose proof Hrec as (Hn & _ & _ & _ & _ & Hid & _).
  assert (k' = k) as -> by (destruct Hp as (E & _); rewrite EF in E; apply Nat.pow_inj_r in E; lia).
  assert (Hsplit : exists ws0 wl p0 il, ws = ws0 ++ [wl] /\ p = p0 ++ [il] /\ length ws0 = (length p - 1)%nat /\ length p0 = (length p - 1)%nat).
  { pose proof (c0_len _ _ _ _ _ Hch) as L. destruct (exists_last (l := ws)) as (ws0 & wl & ->); [intros ->; cbn in L; lia|].
    destruct (exists_last (l := p)) as (p0 & il & Ep); [intros E; rewrite E in Hn; cbn in Hn; lia|].
    exists ws0, wl, p0, il. split; [done|]. split; [done|]. rewrite Ep in *. rewrite !app_length in *. cbn in *. lia. }
  destruct Hsplit as (ws0 & wl & p0 & il & Ews & Ep & L0 & Lp0).
  rewrite (prove_form0 F α k pp p ws z co Hp Hn Hch ls id id2path ws0 wl p0 il Hid HG Ews Ep) in HPL.
  destruct (eq_params F α (length p) k pp Hp) as (j & zc & Hpoe & Hpad & Hle & Hzc). pose proof (c0_len _ _ _ _ _ Hch) as L. pose proof Hch as [_ Hpath _ _ _ _ _ _ _ _].
  destruct (eq_pairs0 F α (length p) k pp Hp j zc p ws Hpoe Hpad Hle Hzc eq_refl Hn Hpath L) as (P1 & _ & _ & _ & _ & _ & P8 & _).
  apply rbind_inv in HPL as (rps & Hr & HPL). apply rbind_inv in HPL as (π & _ & HPL). apply rbind_inv in HPL as (s & Hs & HPL). rewrite P8 in HPL. cbn [rbind] in HPL. apply rbind_inv in HPL as (eqp & He & HPL).
  assert (Elp : lp = MkLP (dot (zip_with (fun d i => nth i d 0) (digests_vec F <$> ws0) p0) (agg_ro F α (commitment (C:=C) (F + 2) α <$> (digests_vec F <$> ws0)) <$> seq 0 (length (digests_vec F <$> ws0)))) π s
    (v_V <$> ws) (commitment (F + 2) α <$> (digests_vec F <$> ws0)) (zip_with (fun w i => nth i (digests_vec F w) 0) ws p) rps eqp (MkTP (gmul (open_exp (F + 2) α il (values_vec F wl)) (gen1 C)) z)) by congruence.
  clear HPL.
  assert (Ej : j = rounds (length p)).
  { pose proof Hp as (_ & _ & _ & _ & _ & _ & _ & _ & _ & _ & j' & Hj' & Hpoe' & Hle' & Hpad'). assert (E : (2 ^ j')%nat = (2 ^ j)%nat) by congruence. apply Nat.pow_inj_r in E; [|lia]. subst j'. apply pad_rounds; done. }
  pose proof Hp as (_ & _ & _ & _ & HR & HS & _).
  assert (Hrs : Forall (fun rp => RangeProof_Size rp = range_size C k) rps).
  { apply Forall_lookup. intros i rp Hi. pose proof (lookup_lt_Some _ _ _ Hi) as Hlt. pose proof (mapM_length _ _ _ Hr) as Lr. rewrite seq_length in Lr. destruct (mapM_lookup _ _ _ i i Hr) as (rp' & Hi' & Hrp); [apply lookup_seq; lia|]. assert (rp' = rp) as -> by congruence. apply rbind_inv in Hrp as (w & _ & Hrp). by apply (C81_range_size C k) in Hrp. }
  pose proof (mapM_length _ _ _ Hr) as Lr. rewrite seq_length in Lr.
  assert (Hes : AggProof_Size eqp = eq_size C j).
  { apply (eqs_size j) in He; [done|cbn [eq_statement es_PP]; apply Hpoe|]. cbn [eq_statement es_V]. unfold path_V. rewrite app_length, take_length, fmap_length, replicate_length. lia. }
  assert (Hss : IPProof_Size (sm_π s) = ipp_size C k) by (unfold SumArgument in Hs; eapply sum_inner_size; [apply HS|exact Hs]).
  split; [|rewrite proof_count, Elp; cbn [lp_sum]; rewrite Hss; done].
  rewrite Elp. unfold LiabilityProof_Size, sumProof_Size, liability_size. cbn [lp_Σ lp_π lp_sum lp_V lp_W lp_Digests lp_RangeProofs lp_Eq]. rewrite (sum_sizes _ _ Hrs), Hes, Vec_Size_length, !G1v_Bytes_length, !Zr_Bytes_length, !enc1_len, !fmap_length, zip_with_length, Lr, L, Nat.min_id, L0, Ej. unfold fields. lia.
Qed.

(** All group elements of G1 in the parameters that are not part of the vector commitment *)
Definition own_points {C : Curve} (pp : PolPP C) : list (G1 C) :=
  [rp_G (po_RPPP pp); rp_H (po_RPPP pp)] ++ rp_Hs (po_RPPP pp) ++ rp_Fs (po_RPPP pp) ++ [pe_F (po_POEPP pp)] ++ pe_G (po_POEPP pp) ++ pe_H (po_POEPP pp) ++
  [sp_U (po_SAPP pp); sp_G (po_SAPP pp); sp_B (po_SAPP pp)] ++ sp_H (po_SAPP pp).
(** Size counts those only: the powers of the trapdoor, which are what commitments are made of, are added and subtracted
    again (range and sum argument use the same ones, and are subtracted too). *)
Theorem C81_params_size (C : Curve) f t α g (pp : PolPP C) n k : supported f t -> GeneratePublicParams f t α = Ret (g, pp) -> full_path_length f t n -> f = (2 ^ Z.of_nat k - 1)%Z ->
  PolPP_Size pp = Z.of_nat (fields C (length (own_points pp)) 0) /\
  length (own_points pp) = (129 * 2 ^ k + 2 * 2 ^ rounds n + 6)%nat /\
  (g1_len C * (2 * 2 ^ k + 2) <= PP_Size (po_PPPP pp))%nat.
Proof.
  intros Hs HG Hfl Ef. destruct (generate_spec (C:=C) f t α Hs) as (n' & g' & pp' & k' & HG' & Hfl' & Hn & Hp & _). rewrite HG in HG'. injection HG' as <- <-.
  assert (n' = n) as -> by (destruct t; cbn in Hfl, Hfl'; congruence).
  pose proof Hp as (E1 & Hk & _ & HPP & (_ & R1 & R2 & R3) & (S1 & S2 & _) & _ & _ & _ & _ & j & Hj & (Q1 & Q2 & Q3) & Hle & Hpad).
  assert (k' = k) as ->.
  { assert (E : ((2 ^ k')%nat = (2 ^ k)%nat)) by (pose proof (pow2_nat_Z k); pose proof (Nat.pow_nonzero 2 k); lia).
    apply Nat.pow_inj_r in E; lia. }
  apply pad_rounds in Hpad; [|lia..|done]. rewrite Hpad in Q2, Q3.
  assert (L : length (own_points pp) = (129 * 2 ^ k + 2 * 2 ^ rounds n + 6)%nat) by (unfold own_points; rewrite !app_length, R2, R3, Q2, Q3, S2; cbn [length]; lia).
  split; [|split; [exact L|]].
  - rewrite L. unfold PolPP_Size, RPPP_Size, poePP_Size, sumPP_Size. rewrite Q1, <- HPP, !G1v_Bytes_length, !enc1_len, R1, R2, R3, Q2, Q3, S1, S2. unfold fields. lia.
  - unfold PP_Size. rewrite G1v_Bytes_length, HPP, pp_G1s_length by lia. rewrite <- !E1. lia.
Qed.

(** Each set of parameters on its own: the points it consists of, all of them. *)
Theorem C81_parts_size (C : Curve) :
  (forall pp : bpPP C, bpPP_Size pp = fields C (length (bp_G pp ++ bp_H pp ++ [bp_U pp])) 0) /\
  (forall n (pp : bpPP C), bp_NewPublicParams n = Ret pp -> bpPP_Size pp = fields C (2 * n + 1) 0) /\
  (forall pp : RPPP C, RPPP_Size pp = fields C (length (rp_Gs pp ++ rp_Hs pp ++ rp_Fs pp ++ [rp_G pp; rp_H pp; rp_F pp])) 0) /\
  (forall pp : sumPP C, sumPP_Size pp = fields C (length (sp_Gs pp ++ sp_H pp ++ [sp_U pp; sp_G pp; sp_F pp; sp_B pp])) 0) /\
  (forall pp : poePP C, poePP_Size pp = (fields C (length (pe_G pp ++ pe_H pp ++ [pe_F pp])) 0 + PP_Size (pe_PP pp))%nat).
Proof.
  unfold bpPP_Size, RPPP_Size, sumPP_Size, poePP_Size, fields.
  split; [|split; [|split; [|split]]]; intros; rewrite ?app_length, !G1v_Bytes_length, !enc1_len; cbn [length]; try lia.
  unfold bp_NewPublicParams, setupDigest in H. inv_ret H. injection H as <-. cbn [bp_G bp_H]. rewrite !rand_gen_vec_length. lia.
Qed.

(** ** The hypotheses can be met *)
(** The dense tree with fanout 7 of C53: 430 points and 107 scalars are counted *)
Example C81_nonvacuous : exists (pp : PolPP toy) g ls lp, GeneratePublicParams 7 Dense (zr 5) = Ret (g, pp) /\ full_path_length 7 Dense 11 /\
  honest_state 7 (zr 5) pp ex_rnd ex_order (digit_path 7) ex_dense_paths ex_dense ls "123456789" ex_dense_p1 5 /\
  ProveLiability pp (digit_path 7) (ex_coins pp) ls "123456789" = Ret (Some (5%Z, lp)) /\
  LiabilityProof_Size lp = fields toy 430 107 /\ fields toy (length (proof_points lp)) (length (proof_scalars lp)) = fields toy 438 110 /\
  PolPP_Size pp = Z.of_nat (fields toy 1070 0).
Proof.
  assert (Hsup : supported 7 Dense) by (exists 3%Z; done). assert (Hfl : full_path_length 7 Dense 11) by done. assert (E7 : 7%Z = (2 ^ Z.of_nat 3 - 1)%Z) by done.
  destruct ex_dense_run as (pp & g & ls & ls' & V & W & lp & H1 & H2 & H3 & H4 & H5 & H6 & H7). exists pp, g, ls, lp. split; [exact H1|]. split; [done|]. split; [exact H4|]. split; [exact H6|].
  destruct (C81_liability_size toy 7 (zr 5) pp ex_rnd ex_order (digit_path 7) ex_dense_paths ex_dense ls _ _ _ (ex_coins pp) 5 lp 3 (honest_recorded _ _ _ _ _ _ _ _ _ _ _ _ H4) eq_refl H6) as [E1 E2].
  change (length ex_dense_p1) with 11%nat in E1. assert (S1 : liability_size toy 3 11 = fields toy 430 107) by (vm_compute; reflexivity). rewrite S1 in E1.
  assert (S2 : (fields toy 430 107 + ipp_size toy 3 + g1_len toy)%nat = fields toy 438 110) by (vm_compute; reflexivity). rewrite E1, S2 in E2.
  split; [exact E1|]. split; [exact E2|].
  destruct (C81_params_size toy 7 Dense (zr 5) g pp 11 3 Hsup H1 Hfl E7) as (E3 & E4 & _). assert (S4 : (129 * 2 ^ 3 + 2 * 2 ^ rounds 11 + 6)%nat = 1070%nat) by (vm_compute; reflexivity). rewrite E3, E4, S4. reflexivity.
Qed.
Print Assumptions C81_range_size.
Print Assumptions C81_liability_size.
Print Assumptions C81_params_size.
Print Assumptions C81_parts_size.
