(** Properties C61 and C23: the public parameters of pol. *)
From Verif Require Import Pol_params Toy.
Local Open Scope Zr_scope.

(** ** C61 *)
(** For supported fanouts the parameters exist and fit together ([params_ok], Pol_params.v). *)
Theorem C61_consistent (C : Curve) f t α : supported f t ->
  exists g pp n k, GeneratePublicParams (C:=C) f t α = Ret (g, pp) /\ full_path_length f t n /\ (2 <= n)%nat /\ params_ok (Z.to_nat f) α n k pp.
Proof. intros H. destruct (generate_spec (C:=C) f t α H) as (n & g & pp & k & H1 & H2 & H3 & H4 & _). exists g, pp, n, k. split_and!; [done..|lia|done]. Qed.
(** The other fanouts: no result. *)
Theorem C61_unsupported (C : Curve) f t α : (0 <= f < 65536)%Z -> ~ supported f t ->
  GeneratePublicParams (C:=C) f t α = Panic \/ GeneratePublicParams (C:=C) f t α = Hang.
Proof.
  intros Hf Hn. enough (tree_paths (C:=C) f t = Panic \/ tree_paths (C:=C) f t = Hang) as [H|H] by (unfold GeneratePublicParams; rewrite H; auto).
  destruct t; cbn [tree_paths].
  - unfold HexId2PathForFanOut. destruct (IsPowerOfTwo ((f + 1) mod 2 ^ 16)) as [ok| |]; [|auto..]. cbn [rbind]. destruct ok; [|auto].
    destruct (hex_path_length f) as [L|] eqn:E; [|auto]. exfalso. apply Hn. apply hex_table_in in E. unfold hex_table in E. cbn [In] in E.
    repeat (destruct E as [E|E]; [injection E as <- <-|]); [..|done].
    all: match goal with |- supported ?f _ => exists (Z.log2 (f + 1)) end; split; [reflexivity|vm_compute; split; discriminate].
  - destruct (decide (f < 2)%Z) as [H2|H2].
    { unfold DigitPathLen. rewrite C32_small_fanouts by lia. auto. }
    destruct (C32_path_length f ltac:(lia)) as (L & -> & _). cbn [rbind]. unfold DigitPath.
    destruct (decide (f = 65535)%Z) as [->|H3]; [right; reflexivity|]. rewrite Z.mod_small by lia.
    destruct (IsPowerOfTwo_spec (f + 1)) as (b & -> & Hb); [lia|]. cbn [rbind]. destruct b; [|auto]. exfalso. apply Hn.
    destruct (proj1 Hb Logic.eq_refl) as (k & Hk & E). exists k. split; [lia|]. split.
    + destruct (decide (2 <= k)%Z); [done|]. assert (k = 1%Z) as -> by lia. lia.
    + destruct (decide (k <= 15)%Z); [done|]. exfalso. assert (2 ^ 16 <= 2 ^ k)%Z by (apply Z.pow_le_mono_r; lia). lia.
Qed.
(** The commitment of the tree to (values, sum, blinding) is the commitment of the range and sum arguments to (values, sum)
    with that blinding. *)
Theorem C61_commitments (C : Curve) F α n k (pp : PolPP C) v r : params_ok F α n k pp -> length v = (F + 1)%nat ->
  Commit (po_PPPP pp) (v ++ [r]) = Ret (gadd (gmul r (rp_F (po_RPPP pp))) (msm v (rp_Gs (po_RPPP pp)))) /\
  Commit (po_PPPP pp) (v ++ [r]) = Ret (commit_sum (po_SAPP pp) v r).
Proof. intros H Hv. unfold commit_sum. rewrite (proj1 (commit_range_sum _ _ _ _ _ _ _ H Hv)), (proj2 (commit_range_sum _ _ _ _ _ _ _ H Hv)). done. Qed.
(** For paths of full length, prover and verifier pad the equalities to the number of generators of the argument. *)
Theorem C61_padding (C : Curve) F α n k (pp : PolPP C) : params_ok F α n k pp ->
  exists j, (length (pe_G (po_POEPP pp)) = 2 ^ j)%nat /\ length (pe_H (po_POEPP pp)) = (2 ^ j)%nat /\ (n - 1 <= 2 ^ j)%nat /\
    pad_to_pow2 (n - 1) = Ret (2 ^ j)%nat.
Proof. intros (_ & _ & _ & _ & _ & _ & _ & _ & _ & _ & j & Hj & (_ & P1 & P2) & H1 & H2). exists j. done. Qed.
Example C61_nonvacuous : supported 3 Dense /\ supported 255 Sparse /\ ~ supported 1 Dense /\ full_path_length 3 Dense 19 /\ full_path_length 255 Sparse 32 /\
  pad_to_pow2 18 = Ret 32%nat.
Proof.
  split_and!; [exists 2%Z; done|exists 8%Z; done| |done|done|vm_compute; done].
  intros (k & E & Hk). assert (2 ^ 2 <= 2 ^ k)%Z by (apply Z.pow_le_mono_r; lia). lia.
Qed.

(** ** C23 *)
(** The digest that the range proof hashes into its challenges is that of the generators of NewRangeProofPublicParams, so
    it does not depend on the trapdoor; the generators in use do. *)
Theorem C23_stale_digest (C : Curve) f t α α' g g' (pp pp' : PolPP C) :
  GeneratePublicParams f t α = Ret (g, pp) -> GeneratePublicParams f t α' = Ret (g', pp') -> supported f t ->
  (exists RP : RPPP C, NewRangeProofPublicParams (Z.to_nat f + 1) = Ret RP /\ rp_Digest (po_RPPP pp) = rp_fresh_digest RP /\
     rp_Digest (po_RPPP pp') = rp_fresh_digest RP) /\
  (α <> α' -> rp_Gs (po_RPPP pp) <> rp_Gs (po_RPPP pp')) /\
  (α ^ (Z.to_nat f + 2) <> α' ^ (Z.to_nat f + 2) -> rp_F (po_RPPP pp) <> rp_F (po_RPPP pp')).
Proof.
  intros H H' Hs.
  destruct (generate_spec (C:=C) f t α Hs) as (n & g1 & pp1 & k & H1 & _ & _ & Hp & _ & RP & HR & Hd). rewrite H in H1. injection H1 as <- <-.
  destruct (generate_spec (C:=C) f t α' Hs) as (n' & g2 & pp2 & k' & H1 & _ & _ & Hp' & _ & RP' & HR' & Hd'). rewrite H' in H1. injection H1 as <- <-.
  destruct Hp as (E & _ & _ & P1 & _ & _ & P2 & _ & P3 & _). destruct Hp' as (E' & _ & _ & P1' & _ & _ & P2' & _ & P3' & _).
  rewrite <- E in HR. rewrite <- E', HR in HR'. injection HR' as <-. split; [|split].
  - exists RP. split; [done|]. unfold rp_Digest. rewrite Hd, Hd'. 
    assert (Hl : length (rp_fresh_digest RP) <> 0%nat) by (unfold rp_fresh_digest; rewrite sha256_len; lia).
    rewrite (proj2 (Nat.eqb_neq _ _) Hl). done.
  - intros Hα HG. rewrite P2, P2', P1, P1' in HG. apply (f_equal (fun l => l !! 0%nat)) in HG. rewrite !lookup_take in HG by lia. rewrite !pp_G1s_lookup_lo in HG by lia.
    assert (HG' : gmul (α ^ (0 + 1)) (gen1 C) = gmul (α' ^ (0 + 1)) (gen1 C)) by congruence. apply gen1_inj in HG'. cbn [zpow Nat.add] in HG'. apply Hα. transitivity (α * 1); [ring|]. rewrite HG'. ring.
  - intros Hα HF. rewrite P1, pp_G1s_lookup_lo in P3 by lia. rewrite P1', pp_G1s_lookup_lo in P3' by lia. rewrite <- HF in P3'. 
    assert (HG : gmul (α ^ (Z.to_nat f + 1 + 1)) (gen1 C) = gmul (α' ^ (Z.to_nat f + 1 + 1)) (gen1 C)) by congruence. apply gen1_inj in HG. apply Hα. replace (Z.to_nat f + 2)%nat with (Z.to_nat f + 1 + 1)%nat by lia. done.
Qed.
Example C23_nonvacuous : exists g g' (pp pp' : PolPP toy), GeneratePublicParams 7 Sparse (zr 2) = Ret (g, pp) /\
  GeneratePublicParams 7 Sparse (zr 3) = Ret (g', pp') /\ rp_Digest (po_RPPP pp) = rp_Digest (po_RPPP pp') /\ rp_Gs (po_RPPP pp) <> rp_Gs (po_RPPP pp').
Proof.
  assert (Hs : supported 7 Sparse) by (exists 3%Z; done).
  destruct (C61_consistent toy 7 Sparse (zr 2) Hs) as (g & pp & _ & _ & H & _). destruct (C61_consistent toy 7 Sparse (zr 3) Hs) as (g' & pp' & _ & _ & H' & _).
  destruct (C23_stale_digest toy 7 Sparse (zr 2) (zr 3) g g' pp pp' H H' Hs) as ((RP & _ & E & E') & HG & _).
  exists g, g', pp, pp'. split_and!; [done|done|congruence|]. apply HG. intros E2. apply zr_inj_small in E2; [done|vm_compute; split; congruence..].
Qed.

Print Assumptions C61_consistent. Print Assumptions C61_unsupported. Print Assumptions C61_commitments. Print Assumptions C61_padding.
Print Assumptions C23_stale_digest.
