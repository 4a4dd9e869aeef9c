(** Facts about the public parameters of pol. *)
From Verif Require Export Model_pol Prop_range Prop_sum Prop_poe Prop_paths Prop_pp.
Local Open Scope Zr_scope.

(** ** Padding to a power of two *)
Lemma uint16_small m : (Z.of_nat m < 65536)%Z -> uint16 m = Z.of_nat m.
Proof. intros H. unfold uint16. apply Z.mod_small. lia. Qed.
Lemma pow2_nat_Z k : Z.of_nat (2 ^ k) = (2 ^ Z.of_nat k)%Z.
Proof. rewrite Nat2Z.inj_pow. done. Qed.
Lemma pad_loop_spec d : forall fuel m k, (1 <= k < 16)%nat -> (m + d = 2 ^ k)%nat -> (1 <= m)%nat -> (d < fuel)%nat ->
  (forall k', (1 <= k')%nat -> ~ (m <= 2 ^ k' < 2 ^ k)%nat) -> pad_loop fuel m = Ret (2 ^ k)%nat.
Proof.
  induction d as [|d IH]; intros fuel m k Hk Hm Hm1 Hf Hmin; (destruct fuel as [|fuel]; [lia|]); cbn [pad_loop].
  - replace m with (2 ^ k)%nat by lia. rewrite IsPowerOfTwo_pow2 by done. done.
  - assert (Hb : (2 ^ Z.of_nat k < 65536)%Z) by (change 65536%Z with (2 ^ 16)%Z; apply Z.pow_lt_mono_r; lia).
    pose proof (pow2_nat_Z k) as E. rewrite uint16_small by lia.
    destruct (IsPowerOfTwo_spec (Z.of_nat m)) as (b & -> & Hb'); [lia|]. cbn [rbind]. destruct b.
    + exfalso. destruct (proj1 Hb' Logic.eq_refl) as (k' & Hk' & Hmk). apply (Hmin (Z.to_nat k')); [lia|].
      assert (Em : m = (2 ^ Z.to_nat k')%nat). { apply Nat2Z.inj. rewrite pow2_nat_Z, Z2Nat.id by lia. done. } lia.
    + apply IH; try lia. intros k' Hk' [H1 H2]. apply (Hmin k' Hk'). lia.
Qed.
Lemma pad_spec m : (1 <= m)%nat -> (Z.of_nat m <= 32768)%Z -> exists k, (1 <= k < 16)%nat /\ pad_to_pow2 m = Ret (2 ^ k)%nat /\ (m <= 2 ^ k)%nat /\
  forall k', (1 <= k')%nat -> (m <= 2 ^ k')%nat -> (k <= k')%nat.
Proof.
  intros Hm1 Hm. assert (H15 : (m <= 2 ^ 15)%nat) by (apply Nat2Z.inj_le; rewrite pow2_nat_Z; change (2 ^ Z.of_nat 15)%Z with 32768%Z; done).
  assert (Hmin : forall b, (m <= 2 ^ S b)%nat -> exists k, (1 <= k <= S b)%nat /\ (m <= 2 ^ k)%nat /\ forall k', (1 <= k')%nat -> (m <= 2 ^ k')%nat -> (k <= k')%nat).
  { clear. induction b as [|b IH]; intros Hb.
    - exists 1%nat. split; [lia|]. split; [done|]. intros; lia.
    - destruct (decide (m <= 2 ^ S b)%nat) as [Hle|Hgt].
      + destruct (IH Hle) as (k & Hk & H). exists k. split; [lia|done].
      + exists (S (S b)). split; [lia|]. split; [done|]. intros k' Hk' Hle. destruct (decide (S (S b) <= k')%nat); [done|]. exfalso. apply Hgt. etransitivity; [exact Hle|]. apply Nat.pow_le_mono_r; lia. }
  apply Hmin in H15. clear Hmin. rename H15 into Hmin.
  destruct Hmin as (k & Hk & Hle & Hmin). exists k. split; [lia|]. split; [|done].
  unfold pad_to_pow2. apply (pad_loop_spec (2 ^ k - m)); try lia.
  - assert ((2 ^ Z.of_nat k <= 2 ^ 15)%Z) by (apply Z.pow_le_mono_r; lia). pose proof (pow2_nat_Z k). change (2 ^ 15)%Z with 32768%Z in *. lia.
  - intros k' Hk' [H1 H2]. specialize (Hmin k' Hk' H1). assert (2 ^ k <= 2 ^ k')%nat by (apply Nat.pow_le_mono_r; lia). lia.
Qed.

(** ** Parameters that fit together *)
(** Parameters for fanout F = 2^k - 1 and paths of n entries, from the trapdoor α *)
Definition params_ok {C : Curve} (F : nat) (α : Zr) (n k : nat) (pp : PolPP C) : Prop :=
  (F + 1 = 2 ^ k)%nat /\ (1 <= k < 16)%nat /\ po_Fanout pp = F /\
  po_PPPP pp = NewPublicParams (F + 2) α /\
  (* range and sum argument: same generators, taken from the vector commitment *)
  params_for k (po_RPPP pp) /\ sum_params k (po_SAPP pp) /\
  rp_Gs (po_RPPP pp) = take (F + 1) (pp_G1s (po_PPPP pp)) /\ sp_Gs (po_SAPP pp) = take (F + 1) (pp_G1s (po_PPPP pp)) /\
  pp_G1s (po_PPPP pp) !! (F + 1)%nat = Some (rp_F (po_RPPP pp)) /\ sp_F (po_SAPP pp) = rp_F (po_RPPP pp) /\
  (* equality argument: same vector commitment; 2^j equalities, enough for all consecutive vertices of a path *)
  exists j, (1 <= j < 16)%nat /\ poe_params (F + 2) (2 ^ j) α (po_POEPP pp) /\
    (n - 1 <= 2 ^ j)%nat /\ pad_to_pow2 (n - 1) = Ret (2 ^ j)%nat.

(** The length of full paths *)
Definition full_path_length (f : Z) (t : TreeType) (n : nat) : Prop :=
  match t with Dense => DigitPathLen f = Ret n | Sparse => hex_path_length f = Some n end.
(** Fanouts 3, 7, 15, ..., 32767 for dense and 3, 7, ..., 16383 for sparse trees *)
Definition supported (f : Z) (t : TreeType) : Prop :=
  exists k, f = (2 ^ k - 1)%Z /\ (2 <= k <= match t with Dense => 15 | Sparse => 14 end)%Z.

Section Generate.
  Context {C : Curve}.

  Lemma tree_paths_spec f t : supported f t -> exists n g, tree_paths (C:=C) f t = Ret ((n - 1)%nat, g) /\ full_path_length f t n /\ (2 <= n <= 200)%nat /\
    match t with Dense => exists h, DigitPath f = Ret h /\ g = fun _ => h | Sparse => HexId2PathForFanOut (C:=C) f = Ret g end.
  Proof.
    intros (k & -> & Hk). destruct t.
    - assert (Hc : (k = 2 \/ k = 3 \/ k = 4 \/ k = 5 \/ k = 6 \/ k = 7 \/ k = 8 \/ k = 9 \/ k = 10 \/ k = 11 \/ k = 12 \/ k = 13 \/ k = 14)%Z) by lia.
      unfold tree_paths, HexId2PathForFanOut. repeat (destruct Hc as [->|Hc]); [..|subst k]; (eexists _, _; split; [reflexivity|]; split; [reflexivity|]; split; [vm_compute; lia|reflexivity]).
    - set (f := (2 ^ k - 1)%Z). assert (Hf : (3 <= f < 32768)%Z).
      { assert (2 ^ 2 <= 2 ^ k)%Z by (apply Z.pow_le_mono_r; lia). assert (2 ^ k <= 2 ^ 15)%Z by (apply Z.pow_le_mono_r; lia). unfold f. lia. }
      destruct (C32_path_length f ltac:(lia)) as (L & HL & H1 & H2).
      assert (HL2 : (2 <= L)%nat). { destruct L as [|[|L]]; [cbn in H1; lia|change (Z.of_nat 1) with 1%Z in H1; lia|lia]. }
      assert (HL30 : (L <= 31)%nat).
      { destruct (decide (L <= 31)%nat); [done|]. specialize (H2 31%nat ltac:(lia)). assert (2 ^ 31 <= f ^ 31)%Z by (apply Z.pow_le_mono_l; lia). change (2 ^ 31)%Z with 2147483648%Z in *. change (10 ^ 9)%Z with 1000000000%Z in *. change (Z.of_nat 31) with 31%Z in *. lia. }
      pose proof (DigitPath_pow2 (Z.to_nat k) ltac:(lia)) as HP. rewrite Z2Nat.id in HP by lia. fold f in HP.
      exists L, (fun _ => digit_path f). unfold tree_paths. rewrite HL, HP. cbn [rbind]. split; [done|]. split; [done|]. split; [lia|]. eauto.
  Qed.

  Lemma supported_pow2 f t : supported f t -> exists k, (2 <= k < 16)%nat /\ (Z.to_nat f + 1 = 2 ^ k)%nat /\ (0 < f)%Z /\ (f + 2 < 65536)%Z.
  Proof.
    intros (k & -> & Hk). assert (Hk' : (2 <= k <= 15)%Z) by (destruct t; lia). exists (Z.to_nat k). split; [lia|].
    assert (2 ^ 2 <= 2 ^ k)%Z by (apply Z.pow_le_mono_r; lia). assert (2 ^ k <= 2 ^ 15)%Z by (apply Z.pow_le_mono_r; lia). change (2 ^ 2)%Z with 4%Z in *. change (2 ^ 15)%Z with 32768%Z in *.
    split; [|lia]. apply Nat2Z.inj. rewrite pow2_nat_Z, Z2Nat.id by lia. lia.
  Qed.

  Lemma generate_spec f t α : supported f t -> exists n g pp k, GeneratePublicParams (C:=C) f t α = Ret (g, pp) /\
    full_path_length f t n /\ (2 <= n <= 200)%nat /\ params_ok (Z.to_nat f) α n k pp /\
    match t with Dense => exists h, DigitPath f = Ret h /\ g = fun _ => h | Sparse => HexId2PathForFanOut (C:=C) f = Ret g end /\
    exists RP : RPPP C, NewRangeProofPublicParams (2 ^ k) = Ret RP /\ rp_digest (po_RPPP pp) = rp_fresh_digest RP.
  Proof.
    intros Hs. destruct (tree_paths_spec f t Hs) as (n & g & Hg & Hn & Hn2 & Hg'). destruct (supported_pow2 f t Hs) as (k & Hk & Ef & Hf0 & Hf).
    destruct (pad_spec (n - 1)) as (j & Hj & Hpad & Hle & _); [lia|lia|].
    set (F := Z.to_nat f) in *.
    assert (E2 : Z.to_nat ((f + 2) mod 2 ^ 16) = (F + 2)%nat) by (rewrite Z.mod_small by (change (2 ^ 16)%Z with 65536%Z; lia); lia).
    assert (E1 : Z.to_nat ((f + 1) mod 2 ^ 16) = (2 ^ k)%nat) by (rewrite Z.mod_small by (change (2 ^ 16)%Z with 65536%Z; lia); lia).
    destruct (C28_generated_params C (F + 2) (2 ^ j) α) as (poe & Hpoe & HpoeP).
    destruct (C24_generated_params C k) as (sp & Hsp & HspP).
    destruct (C21_generated_params C k ltac:(lia)) as (rp & Hrp & HrpP & Hdig).
    pose proof (proj1 HpoeP) as HPP.
    assert (Hlen : length (pp_G1s (NewPublicParams (C:=C) (F + 2) α)) = (2 * (F + 2))%nat) by (apply pp_G1s_length; lia).
    destruct (lookup_lt_is_Some_2 (pp_G1s (NewPublicParams (C:=C) (F + 2) α)) (2 ^ k)%nat ltac:(lia)) as [GF HGF].
    eexists n, g, _, k. unfold GeneratePublicParams. rewrite Hg. cbn [rbind]. rewrite Hpad. cbn [rbind]. rewrite E2, Hpoe. cbn [rbind]. rewrite E1, Hsp. cbn [rbind]. rewrite Hrp. cbn [rbind].
    rewrite HPP. unfold idx. rewrite HGF. cbn [rbind]. unfold copy_n. rewrite (proj2 (Nat.leb_le _ _)) by lia. cbn [rbind]. split; [reflexivity|]. split; [done|]. split; [done|].
    assert (Htl : length (take (2 ^ k) (pp_G1s (NewPublicParams (C:=C) (F + 2) α))) = (2 ^ k)%nat) by (rewrite take_length; lia).
    split; [|split; [done|]].
    - destruct HspP as (S1 & S2 & S3 & S4), HrpP as (R1 & R2 & R3 & R4). unfold params_ok. cbn [po_PPPP po_SAPP po_RPPP po_POEPP po_Fanout].
      split_and!; unfold set_range_gens, set_sum_gens; cbn [rp_Gs rp_Hs rp_Fs rp_F sp_Gs sp_H sp_b sp_B sp_F]; rewrite ?Ef; try done; try lia.
      + exists j. split; [lia|]. split; [done|]. split; [done|]. done.
    - exists rp. split; [done|]. cbn. rewrite Hdig. done.
  Qed.
End Generate.

Lemma take_snoc {A} n (l : list A) x : l !! n = Some x -> take (n + 1) l = take n l ++ [x].
Proof. intros H. replace (n + 1)%nat with (S n) by lia. by apply take_S_r. Qed.
Lemma commit_range_sum {C : Curve} F α n k (pp : PolPP C) v r : params_ok F α n k pp -> length v = (F + 1)%nat ->
  Commit (po_PPPP pp) (v ++ [r]) = Ret (gadd (gmul r (rp_F (po_RPPP pp))) (msm v (rp_Gs (po_RPPP pp)))) /\
  gadd (gmul r (sp_F (po_SAPP pp))) (msm v (sp_Gs (po_SAPP pp))) = gadd (gmul r (rp_F (po_RPPP pp))) (msm v (rp_Gs (po_RPPP pp))).
Proof.
  intros (E & _ & _ & P1 & _ & _ & P2 & P2' & P3 & P3' & _) Hv. rewrite P3', P2', P2, P1. split; [|done].
  rewrite C07_commitment_value by (rewrite ?app_length; cbn; lia). f_equal. rewrite P1 in P3.
  replace (F + 2)%nat with (F + 1 + 1)%nat at 1 by lia. rewrite (take_snoc _ _ _ P3), msm_app by (rewrite take_length, Hv; rewrite (pp_G1s_length (F + 2)) by lia; lia).
  cbn [msm]. generalize (msm v (take (F + 1) (pp_G1s (NewPublicParams (C:=C) (F + 2) α)))), (rp_F (po_RPPP pp)). intros a b. module.
Qed.
