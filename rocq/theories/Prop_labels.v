(** Property C90: the generators of the parameters come from pairwise different labels. *)
From Verif Require Import Common_facts Model_pol Pol_params Prop_size Prop_params Toy.
Local Open Scope nat_scope.

(** ** Specification *)
(** The generator of a label: a context and a number, written "PoL <context> <number>" *)
Definition label_text (l : string * nat) : bytes := string_bytes ("PoL " +:+ fst l +:+ " " +:+ pretty (N.of_nat (snd l))).
Definition label_input (C : Curve) (l : string * nat) : bytes := let h := sha256 C (label_text l) in h ++ sha256 C h.
Definition generator (C : Curve) (l : string * nat) : G1 C := hash_to_g1 C (label_input C l).
(** The labels (context, 0), ..., (context, n-1) *)
Definition numbered (context : string) (n : nat) : list (string * nat) := (fun i => (context, i)) <$> seq 0 n.
(** The labels for fanout N-1 and M equalities: range proof, equality argument, sum argument *)
Definition labels (N M : nat) : list (string * nat) :=
  numbered "range proof G" 1 ++ numbered "range proof H" 1 ++ numbered "range proof Hs" (64 * N) ++ numbered "range proof Fs" (64 * N) ++
  numbered "POE F" 1 ++ numbered "POE G" M ++ numbered "POE H" M ++ numbered "IPA u" 1 ++ numbered "sum argument G" 1 ++ numbered "sum argument H" N.
(** The points of the parameters outside the vector commitment, without B, a combination of those of the sum argument *)
Definition hashed_points {C : Curve} (pp : PolPP C) : list (G1 C) :=
  [rp_G (po_RPPP pp); rp_H (po_RPPP pp)] ++ rp_Hs (po_RPPP pp) ++ rp_Fs (po_RPPP pp) ++ [pe_F (po_POEPP pp)] ++ pe_G (po_POEPP pp) ++ pe_H (po_POEPP pp) ++
  [sp_U (po_SAPP pp); sp_G (po_SAPP pp)] ++ sp_H (po_SAPP pp).
(** Two different inputs with the same result *)
Definition collides {A B} (f : A -> B) : Prop := exists x y, x <> y /\ f x = f y.

(** ** Facts *)
Lemma numbered_gens (C : Curve) c n : RandGenVec (C:=C) n c = generator C <$> numbered c n.
Proof. unfold RandGenVec, numbered. rewrite <- list_fmap_compose. done. Qed.
Lemma elem_numbered c n l : l ∈ numbered c n <-> fst l = c /\ snd l < n.
Proof.
  unfold numbered. rewrite elem_of_list_fmap. split; [intros (i & -> & Hi); apply elem_of_seq in Hi; cbn; split; [done|lia]|].
  destruct l as [c' i]. cbn. intros [-> Hi]. exists i. split; [done|]. apply elem_of_seq. lia.
Qed.
Lemma NoDup_numbered c n : NoDup (numbered c n).
Proof. unfold numbered. apply NoDup_fmap; [intros i j [= ->]; done|apply NoDup_seq]. Qed.
Lemma NoDup_numbered_app c n ls : NoDup ls -> (forall l, l ∈ ls -> fst l <> c) -> NoDup (numbered c n ++ ls).
Proof. intros H Hc. apply NoDup_app. split; [apply NoDup_numbered|]. split; [|done]. intros l Hl Hin. apply elem_numbered in Hl as [Hl _]. exact (Hc l Hin Hl). Qed.
Lemma context_ne c c' n ls : (forall l, l ∈ ls -> fst l <> c) -> c' <> c -> forall l, l ∈ numbered c' n ++ ls -> fst l <> c.
Proof. intros H Hne l Hl. apply elem_of_app in Hl as [Hl|Hl]; [apply elem_numbered in Hl as [-> _]; done|by apply H]. Qed.
Lemma context_ne1 c c' n : c' <> c -> forall l, l ∈ numbered c' n -> fst l <> c.
Proof. intros Hne l Hl. apply elem_numbered in Hl as [-> _]. done. Qed.

(** ** Theorems *)
(** Different labels have different texts. *)
Theorem C90_texts l l' : label_text l = label_text l' -> l = l'.
Proof. destruct l as [c i], l' as [c' i']. intros E. apply (gen_preimage_inj c i c' i') in E as [-> ->]. done. Qed.
(** No label is used twice, and the labels of the points chosen anew by the proofs ("u" and "U range proof") are others. *)
Theorem C90_distinct N M : NoDup (labels N M ++ numbered "u" 1 ++ numbered "U range proof" 1).
Proof.
  unfold labels. rewrite <- !app_assoc.
  repeat (apply NoDup_numbered_app; [|repeat (apply context_ne; [|done]); by apply context_ne1]). apply NoDup_numbered.
Qed.
(** The points of the parameters are the generators of these labels, for any trapdoor: they are the same for all deployments with one fanout and tree type.  *)
Theorem C90_points (C : Curve) f t α g (pp : PolPP C) n k : supported f t -> GeneratePublicParams f t α = Ret (g, pp) -> full_path_length f t n -> f = (2 ^ Z.of_nat k - 1)%Z ->
  hashed_points pp = generator C <$> labels (2 ^ k) (2 ^ rounds n).
Proof.
  intros Hs HG Hfl Ef. destruct (generate_spec (C:=C) f t α Hs) as (n' & g' & pp' & k' & HG' & Hfl' & Hn & Hp & _). rewrite HG in HG'. injection HG' as <- <-.
  assert (n' = n) as -> by (destruct t; cbn in Hfl, Hfl'; congruence).
  pose proof Hp as (E1 & Hk & _ & _ & (_ & R1 & R2 & R3) & (S1 & S2 & _) & _ & _ & _ & _ & j & Hj & (Q1 & Q2 & Q3) & Hle & Hpad).
  assert (k' = k) as ->.
  { assert (E : ((2 ^ k')%nat = (2 ^ k)%nat)) by (pose proof (pow2_nat_Z k); pose proof (Nat.pow_nonzero 2 k); lia). apply Nat.pow_inj_r in E; lia. }
  apply pad_rounds in Hpad; [|lia..|done]. rewrite Hpad in Q2, Q3.
  unfold GeneratePublicParams in HG. apply rbind_inv in HG as ([m id2p] & _ & HG). apply rbind_inv in HG as (m' & _ & HG). apply rbind_inv in HG as (poe & Hpoe & HG). apply rbind_inv in HG as (sp & Hsp & HG).
  apply rbind_inv in HG as (rp & Hrp & HG). apply rbind_inv in HG as (F & _ & HG). apply rbind_inv in HG as (Gs & _ & HG). injection HG as _ <-.
  unfold poe_NewPublicParams in Hpoe. apply rbind_inv in Hpoe as (F0 & HF0 & Hpoe). injection Hpoe as <-.
  unfold sum_NewPublicParams in Hsp. apply rbind_inv in Hsp as (U & HU & Hsp). apply rbind_inv in Hsp as (SG & HSG & Hsp). apply rbind_inv in Hsp as (SF & _ & Hsp). apply rbind_inv in Hsp as (b & _ & Hsp). apply rbind_inv in Hsp as (B & _ & Hsp). injection Hsp as <-.
  unfold NewRangeProofPublicParams in Hrp. apply rbind_inv in Hrp as (G & HGr & Hrp). apply rbind_inv in Hrp as (H & HH & Hrp). apply rbind_inv in Hrp as (F1 & _ & Hrp). injection Hrp as <-.
  unfold poe_SetupDigest in *. cbn [po_RPPP po_POEPP po_SAPP set_range_gens set_sum_gens rp_G rp_H rp_Hs rp_Fs pe_F pe_G pe_H sp_U sp_G sp_H] in *.
  assert (H1 : forall c P, idx (RandGenVec (C:=C) 1 c) 0 = Ret P -> [P] = RandGenVec (C:=C) 1 c) by (intros c P E; cbn in E; injection E as <-; done).
  apply H1 in HF0, HU, HSG, HGr, HH. rewrite !rand_gen_vec_length in *.
  unfold hashed_points. cbn [po_RPPP po_POEPP po_SAPP set_range_gens set_sum_gens rp_G rp_H rp_Hs rp_Fs pe_F pe_G pe_H sp_U sp_G sp_H].
  change [G; H] with ([G] ++ [H]). change [U; SG] with ([U] ++ [SG]). rewrite HF0, HU, HSG, HGr, HH, !numbered_gens. unfold labels. rewrite !fmap_app, <- !app_assoc. rewrite R2, Q2, S2.
  assert (Ea : 64 * 2 ^ k = 2 ^ k * 64) by lia. rewrite Ea. reflexivity.
Qed.
(** So they do not depend on the trapdoor. *)
Theorem C90_transparent (C : Curve) f t α α' g g' (pp pp' : PolPP C) : supported f t ->
  GeneratePublicParams f t α = Ret (g, pp) -> GeneratePublicParams f t α' = Ret (g', pp') -> hashed_points pp = hashed_points pp' /\ sp_B (po_SAPP pp) = sp_B (po_SAPP pp').
Proof.
  intros Hs H H'. destruct (generate_spec (C:=C) f t α Hs) as (n & g0 & pp0 & k & _ & Hfl & _ & Hp & _). destruct Hp as (E1 & _).
  assert (Ef : f = (2 ^ Z.of_nat k - 1)%Z) by (pose proof (pow2_nat_Z k); destruct Hs as (k0 & -> & Hk0); pose proof (Z.pow_le_mono_r 2 2 k0 ltac:(lia) ltac:(lia)); lia).
  split; [rewrite (C90_points C f t α g pp n k Hs H Hfl Ef), (C90_points C f t α' g' pp' n k Hs H' Hfl Ef); done|].
  unfold GeneratePublicParams in H, H'. apply rbind_inv in H as ([m i1] & Hm & H). apply rbind_inv in H as (m' & Hm' & H). apply rbind_inv in H as (poe & _ & H). apply rbind_inv in H as (sp & Hsp & H).
  apply rbind_inv in H as (rp & _ & H). apply rbind_inv in H as (F & _ & H). apply rbind_inv in H as (Gs & _ & H). injection H as _ <-.
  apply rbind_inv in H' as ([m2 i2] & _ & H'). apply rbind_inv in H' as (m2' & _ & H'). apply rbind_inv in H' as (poe2 & _ & H'). apply rbind_inv in H' as (sp2 & Hsp2 & H').
  apply rbind_inv in H' as (rp2 & _ & H'). apply rbind_inv in H' as (F2 & _ & H'). apply rbind_inv in H' as (Gs2 & _ & H'). injection H' as _ <-.
  rewrite Hsp in Hsp2. injection Hsp2 as <-. done.
Qed.
(** Two equal points among them are a collision of one of the hash functions. *)
Theorem C90_equal_points (C : Curve) f t α g (pp : PolPP C) i j P : supported f t -> GeneratePublicParams f t α = Ret (g, pp) -> i <> j ->
  hashed_points pp !! i = Some P -> hashed_points pp !! j = Some P -> collides (hash_to_g1 C) \/ collides (sha256 C).
Proof.
  intros Hs H Hij Hi Hj. destruct (generate_spec (C:=C) f t α Hs) as (n & g0 & pp0 & k & _ & Hfl & _ & Hp & _). destruct Hp as (E1 & _).
  assert (Ef : f = (2 ^ Z.of_nat k - 1)%Z) by (pose proof (pow2_nat_Z k); destruct Hs as (k0 & -> & Hk0); pose proof (Z.pow_le_mono_r 2 2 k0 ltac:(lia) ltac:(lia)); lia).
  rewrite (C90_points C f t α g pp n k Hs H Hfl Ef) in Hi, Hj. apply list_lookup_fmap_inv in Hi as (l & -> & Hl). apply list_lookup_fmap_inv in Hj as (l' & E & Hl').
  assert (Hne : l <> l').
  { intros ->. apply Hij. pose proof (C90_distinct (2 ^ k) (2 ^ rounds n)) as HN. apply NoDup_app in HN as [HN _]. by apply (NoDup_lookup _ _ _ _ HN Hl Hl'). }
  unfold generator in E. destruct (decide (label_input C l = label_input C l')) as [Ei|Ei]; [|left; by exists (label_input C l), (label_input C l')].
  right. unfold label_input in Ei. apply app_inj_1 in Ei as [Ei _]; [|rewrite !sha256_len; done]. exists (label_text l), (label_text l'). split; [|done]. intros Et. apply Hne, C90_texts, Et.
Qed.

(** Fanout 7: 1069 generators *)
Example C90_nonvacuous : supported 7 Dense /\ exists g (pp : PolPP toy), GeneratePublicParams (C:=toy) 7 Dense (zr 5) = Ret (g, pp) /\ length (hashed_points pp) = 1069 /\
  label_text ("g", 11) <> label_text ("g 1", 1).
Proof.
  assert (Hs : supported 7 Dense) by (exists 3%Z; split; [done|lia]). split; [exact Hs|].
  destruct (C61_consistent toy 7 Dense (zr 5) Hs) as (g & pp & n & _ & H & Hfl & _). exists g, pp. split; [exact H|]. split; [|intros E; by apply C90_texts in E].
  rewrite (C90_points toy 7 Dense (zr 5) g pp n 3 Hs H Hfl eq_refl). assert (n = 11) as -> by (assert (E : DigitPathLen 7 = Ret 11) by (vm_compute; reflexivity); unfold full_path_length in Hfl; congruence).
  clear. rewrite fmap_length. apply Nat.eqb_eq. vm_compute. reflexivity.
Qed.
Print Assumptions C90_texts.
Print Assumptions C90_distinct.
Print Assumptions C90_points.
Print Assumptions C90_transparent.
Print Assumptions C90_equal_points.
