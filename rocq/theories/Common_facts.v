(** Facts about the model of common/math.go. *)
From Verif Require Export Model_common.
Local Open Scope Zr_scope.

(** ** IsPowerOfTwo *)
Lemma land_1_mod2 n : Z.land n 1 = (n mod 2)%Z.
Proof. change 1%Z with (Z.ones 1). rewrite Z.land_ones by lia. reflexivity. Qed.
Lemma shiftr_1_div2 n : Z.shiftr n 1 = (n / 2)%Z.
Proof. rewrite Z.shiftr_div_pow2 by lia. reflexivity. Qed.

Lemma is_pow2_loop_0 fuel : is_pow2_loop fuel 0 = Hang.
Proof. induction fuel as [|fuel IH]; [done|]. exact IH. Qed.

Lemma is_pow2_loop_spec fuel n : (0 < n < 2 ^ Z.of_nat fuel)%Z ->
  exists b, is_pow2_loop fuel n = Ret b /\ (b = true <-> exists k, (0 <= k)%Z /\ n = (2 ^ k)%Z).
Proof.
  revert n; induction fuel as [|fuel IH]; intros n Hn; [simpl in Hn; lia|].
  rewrite Nat2Z.inj_succ, Z.pow_succ_r in Hn by lia. cbn [is_pow2_loop].
  rewrite land_1_mod2, shiftr_1_div2. pose proof (Z.div_mod n 2 ltac:(lia)) as E.
  destruct (Z.eqb_spec (n mod 2) 1) as [E1|E1].
  - rewrite andb_true_r. destruct (Z.eqb_spec (n / 2) 0) as [E2|E2].
    + exists true. split; [done|]. split; [|done]. intros _. exists 0%Z. simpl. lia.
    + exists false. split; [done|]. split; [done|]. intros [k [Hk ->]]. exfalso.
      assert (k = 0 \/ 0 < k)%Z as [->|Hk'] by lia; [simpl in *; apply E2; reflexivity|].
      replace k with (Z.succ (k - 1)) in E1 by lia. rewrite Z.pow_succ_r in E1 by lia.
      rewrite Z.mul_comm, Z.mod_mul in E1 by lia. lia.
  - rewrite andb_false_r. pose proof (Z.mod_pos_bound n 2 ltac:(lia)).
    destruct (IH (n / 2)%Z) as [b [Hb Hs]]; [lia|]. exists b. split; [exact Hb|]. rewrite Hs. split.
    + intros [k [Hk Hk']]. exists (Z.succ k). split; [lia|]. rewrite Z.pow_succ_r by lia. lia.
    + intros [k [Hk ->]]. assert (k = 0 \/ 0 < k)%Z as [->|Hk'] by lia; [simpl in E1; exfalso; apply E1; reflexivity|].
      exists (k - 1)%Z. split; [lia|]. replace k with (Z.succ (k - 1)) at 1 by lia. rewrite Z.pow_succ_r by lia.
      rewrite Z.mul_comm, Z.div_mul by lia. done.
Qed.

Lemma IsPowerOfTwo_spec n : (0 < n < 65536)%Z ->
  exists b, IsPowerOfTwo n = Ret b /\ (b = true <-> exists k, (1 <= k)%Z /\ n = (2 ^ k)%Z).
Proof.
  intros Hn. unfold IsPowerOfTwo, IsPowerOfTwo_fuel. destruct (Z.eqb_spec n 1) as [->|H1].
  - exists false. split; [done|]. split; [done|]. intros [k [Hk Hk']].
    pose proof (Z.pow_gt_1 2 k ltac:(lia)). lia.
  - destruct (is_pow2_loop_spec 17 n) as [b [Hb Hs]]; [split; [lia|]; change (2 ^ Z.of_nat 17)%Z with 131072%Z; lia|].
    exists b. split; [exact Hb|]. rewrite Hs. split; intros [k [Hk ->]]; exists k; split; try done; try lia.
    assert (k = 0 \/ 1 <= k)%Z as [->|] by lia; [simpl in H1; lia|done].
Qed.

Lemma IsPowerOfTwo_pow2 k : (1 <= k < 16)%nat -> IsPowerOfTwo (uint16 (2 ^ k)) = Ret true.
Proof.
  intros Hk. unfold uint16. rewrite Nat2Z.inj_pow. change (Z.of_nat 2) with 2%Z.
  assert (2 ^ 1 <= 2 ^ Z.of_nat k < 2 ^ 16)%Z.
  { split; [apply Z.pow_le_mono_r; lia|apply Z.pow_lt_mono_r; lia]. }
  rewrite Z.mod_small by lia.
  destruct (IsPowerOfTwo_spec (2 ^ Z.of_nat k)) as [b [-> Hs]]; [lia|].
  f_equal. apply Hs. exists (Z.of_nat k). split; [lia|done].
Qed.

(** ** Bits *)
(** Value of a list of binary digits, least significant first. *)
Fixpoint bits_val (l : list Z) : Z := match l with [] => 0 | b :: l => b + 2 * bits_val l end%Z.

Lemma bits_val_app a b : bits_val (a ++ b) = (bits_val a + 2 ^ Z.of_nat (length a) * bits_val b)%Z.
Proof.
  induction a as [|x a IH]; cbn [bits_val app length]; [change (2 ^ Z.of_nat 0)%Z with 1%Z; lia|].
  rewrite Nat2Z.inj_succ, Z.pow_succ_r by lia. rewrite IH. lia.
Qed.
Lemma bits_val_zeros n : bits_val (replicate n 0%Z) = 0%Z.
Proof. induction n as [|n IH]; cbn [replicate bits_val]; lia. Qed.
Lemma bits_val_bound l : Forall (fun b => b = 0 \/ b = 1)%Z l -> (0 <= bits_val l < 2 ^ Z.of_nat (length l))%Z.
Proof.
  induction 1 as [|b l Hb Hl IH]; cbn [bits_val length]; [simpl; lia|].
  rewrite Nat2Z.inj_succ, Z.pow_succ_r by lia. lia.
Qed.

Lemma bits_loop_spec fuel N : (0 <= N < 2 ^ (Z.of_nat fuel - 1))%Z -> (1 <= fuel)%nat ->
  exists l, bits_loop fuel N = Ret l /\ Forall (fun b => b = 0 \/ b = 1)%Z l /\ bits_val l = N /\
    (l = [] \/ 2 ^ (Z.of_nat (length l) - 1) <= N)%Z.
Proof.
  revert N; induction fuel as [|fuel IH]; intros N HN Hf; [lia|]. cbn [bits_loop].
  destruct (Z.eqb_spec N 0) as [->|HN0].
  - exists []. repeat split; [constructor|left; done].
  - rewrite land_1_mod2, shiftr_1_div2. pose proof (Z.div_mod N 2 ltac:(lia)) as E.
    pose proof (Z.mod_pos_bound N 2 ltac:(lia)) as Em.
    replace (Z.of_nat (S fuel) - 1)%Z with (Z.of_nat fuel) in HN by lia.
    assert (1 <= fuel)%nat. { destruct fuel; [simpl in HN; lia|lia]. }
    replace (Z.of_nat fuel) with (Z.succ (Z.of_nat fuel - 1)) in HN by lia. rewrite Z.pow_succ_r in HN by lia.
    destruct (IH (N / 2)%Z) as [l [Hl [Hb [Hv Hlen]]]]; [lia|lia|]. rewrite Hl. cbn [rbind].
    exists ((N mod 2)%Z :: l). repeat split.
    + constructor; [lia|done].
    + cbn [bits_val]. lia.
    + right. cbn [length]. replace (Z.of_nat (S (length l)) - 1)%Z with (Z.of_nat (length l)) by lia.
      destruct Hlen as [->|Hlen]; [simpl; lia|].
      destruct l as [|b l]; [simpl; lia|]. cbn [length] in *.
      replace (Z.of_nat (S (length l))) with (Z.succ (Z.of_nat (length l))) by lia.
      replace (Z.of_nat (S (length l)) - 1)%Z with (Z.of_nat (length l)) in Hlen by lia.
      rewrite Z.pow_succ_r by lia. lia.
Qed.

Lemma zv_lt_2_254 x : (0 <= zv x < 2 ^ 254)%Z.
Proof. pose proof (zv_range x). assert (r < 2 ^ 254)%Z by reflexivity. lia. Qed.

Lemma be_val_Zr_Bytes x : be_val (Zr_Bytes x) = zv x.
Proof.
  unfold Zr_Bytes. apply be_val_be_bytes. pose proof (zv_lt_2_254 x).
  assert (2 ^ 254 < 256 ^ Z.of_nat 32)%Z by reflexivity. lia.
Qed.
Lemma Zr_Bytes_length x : length (Zr_Bytes x) = 32%nat.
Proof. apply be_bytes_length. Qed.

Lemma Bits_spec n L : exists l, Bits n L = Ret l /\ Forall (fun b => b = 0 \/ b = 1)%Z l /\
  bits_val l = zv n /\ (L <= length l)%nat /\ (length l = L \/ (2 ^ (Z.of_nat (length l) - 1) <= zv n)%Z).
Proof.
  unfold Bits. rewrite be_val_Zr_Bytes.
  destruct (bits_loop_spec 256 (zv n)) as [l [Hl [Hb [Hv Hlen]]]].
  { pose proof (zv_lt_2_254 n). assert (2 ^ 254 < 2 ^ (Z.of_nat 256 - 1))%Z by reflexivity. lia. }
  { lia. }
  rewrite Hl. cbn [rbind]. eexists. split; [reflexivity|]. repeat split.
  - apply Forall_app. split; [done|]. apply Forall_replicate. left; done.
  - rewrite bits_val_app, bits_val_zeros. lia.
  - rewrite app_length, replicate_length. lia.
  - rewrite app_length, replicate_length. destruct (decide (length l <= L)%nat) as [H|H]; [left; lia|right].
    destruct Hlen as [->|Hlen]; [simpl in H; lia|]. replace (length l + (L - length l))%nat with (length l) by lia. done.
Qed.

(** A value below 2^L has exactly L bits. *)
Lemma Bits_small n L : (zv n < 2 ^ Z.of_nat L)%Z -> exists l, Bits n L = Ret l /\
  Forall (fun b => b = 0 \/ b = 1)%Z l /\ bits_val l = zv n /\ length l = L.
Proof.
  intros Hn. destruct (Bits_spec n L) as (l & Hl & Hb & Hv & Hle & Hlen). exists l. repeat split; [done..|].
  destruct Hlen as [|Hlen]; [done|]. destruct (decide (length l = L)) as [|Hne]; [done|].
  assert (2 ^ Z.of_nat L <= 2 ^ (Z.of_nat (length l) - 1))%Z by (apply Z.pow_le_mono_r; lia). lia.
Qed.
(** A value of at least 2^L has more than L bits. *)
Lemma Bits_large n L : (2 ^ Z.of_nat L <= zv n)%Z -> exists l, Bits n L = Ret l /\ (L < length l)%nat.
Proof.
  intros Hn. destruct (Bits_spec n L) as (l & Hl & Hb & Hv & Hle & Hlen). exists l. split; [done|].
  destruct (decide (length l = L)) as [E|]; [|lia]. pose proof (bits_val_bound l Hb). rewrite E in *. lia.
Qed.

(** ** Vectors *)
Lemma vec_innerprod_spec a b : length a = length b -> Vec_InnerProd a b = Ret (dot a b).
Proof.
  intros H. unfold Vec_InnerProd. rewrite (proj2 (Nat.eqb_eq _ _) H). f_equal.
  assert (G : forall s, fold_left (fun sum xy => sum + fst xy * snd xy) (zip a b) s = s + dot a b).
  { revert b H. induction a as [|x a IH]; intros [|y b] H s; simpl in *; try discriminate; [ring|].
    rewrite IH by lia. ring. }
  rewrite G. change (zr 0) with 0. ring.
Qed.
Lemma vec_innerprod_panic a b : length a <> length b -> Vec_InnerProd a b = Panic.
Proof. intros H. unfold Vec_InnerProd. rewrite (proj2 (Nat.eqb_neq _ _) H). done. Qed.
Lemma vec_add_spec a b : length a = length b -> Vec_Add a b = Ret (vadd a b).
Proof. intros H. unfold Vec_Add. rewrite (proj2 (Nat.eqb_eq _ _) H). done. Qed.
Lemma negzr_opp x : NegZr x = - x.
Proof. unfold NegZr. change (zr 0) with 0. ring. Qed.
Lemma vec_sub_spec a b : length a = length b -> Vec_Sub a b = Ret (vsub a b).
Proof.
  intros H. unfold Vec_Sub. rewrite (proj2 (Nat.eqb_eq _ _) H). f_equal. unfold vsub.
  apply zip_with_ext; try done. intros x y. rewrite negzr_opp. ring.
Qed.
Lemma vec_mul_spec v x : Vec_Mul v x = vscale x v.
Proof. unfold Vec_Mul, vscale. apply list_fmap_ext; intros; ring. Qed.
Lemma vec_hadamard_spec a b : length a = length b -> Vec_HadamardProd a b = Ret (vmul a b).
Proof. intros H. unfold Vec_HadamardProd. rewrite (proj2 (Nat.eqb_eq _ _) H). done. Qed.

Lemma power_series_loop_lookup k next e i : (i < k)%nat -> power_series_loop k next e !! i = Some (next * e ^ i).
Proof.
  revert next i; induction k as [|k IH]; intros next i Hi; [lia|]. cbn [power_series_loop].
  destruct i as [|i]; cbn [lookup list_lookup]; [f_equal; cbn [zpow]; ring|].
  rewrite IH by lia. f_equal. cbn [zpow]. ring.
Qed.
Lemma power_series_length n e : length (PowerSeries n e) = n.
Proof. unfold PowerSeries. generalize (zr 1). induction n as [|n IH]; intros next; cbn; [done|]. f_equal. apply IH. Qed.
Lemma power_series_lookup n e i : (i < n)%nat -> PowerSeries n e !! i = Some (e ^ i).
Proof. intros H. unfold PowerSeries. rewrite power_series_loop_lookup by done. f_equal. change (zr 1) with 1. ring. Qed.

Section Curve.
  Context {C : Curve}.
  Implicit Types (g h : list (G1 C)).

  Lemma vec_exp_spec a g : length a = length g -> g <> [] -> Vec_Exp a g = Ret (msm a g).
  Proof.
    intros H Hg. unfold Vec_Exp. rewrite (proj2 (Nat.eqb_eq _ _) H).
    destruct a as [|x a], g as [|P g]; simpl in *; try discriminate; [done|]. f_equal.
    assert (G : forall s, fold_left (fun acc xP => gadd acc (gmul (fst xP) (snd xP))) (zip a g) s = gadd s (msm a g)).
    { injection H as H. clear -H. revert g H. induction a as [|x a IH]; intros [|P g] H s; simpl in *; try discriminate; [module|].
      rewrite IH by lia. module. }
    apply G.
  Qed.
  Lemma g1v_add_spec g h : (length g <= length h)%nat -> G1v_Add g h = Ret (gvadd g h).
  Proof. intros H. unfold G1v_Add. rewrite (proj2 (Nat.leb_le _ _) H). done. Qed.
  Lemma g1v_hadamard_spec g h : (length g <= length h)%nat -> G1v_HadamardProd g h = Ret (gvadd g h).
  Proof. intros H. unfold G1v_HadamardProd. rewrite (proj2 (Nat.leb_le _ _) H). done. Qed.
  Lemma g1v_mul_spec g x : G1v_Mul g x = gvscale x g.
  Proof. done. Qed.
  Lemma g1v_neg_spec g : G1v_Neg g = gopp <$> g.
  Proof. unfold G1v_Neg. apply list_fmap_ext; intros; module. Qed.
  Lemma g1v_mulv_spec g v : length g = length v -> G1v_MulV g v = Ret (gvmul v g).
  Proof.
    intros H. unfold G1v_MulV. rewrite (proj2 (Nat.eqb_eq _ _) H). f_equal. unfold gvmul. clear H.
    revert v; induction g as [|P g IH]; intros [|x v]; cbn [zip_with]; try done. rewrite IH. f_equal.
    destruct (zeqb x (zr 0)) eqn:E; [|done].
    apply zeqb_eq in E. subst. change (zr 0) with 0. symmetry. apply gmul_0.
  Qed.
  Lemma g1v_sum_spec g : g <> [] -> G1v_Sum g = Ret (gsum g).
  Proof.
    destruct g as [|P g]; [done|]. intros _. simpl. f_equal. revert P. induction g as [|Q g IH]; intros P; simpl; [module|].
    destruct (geqb Q gzero) eqn:E; rewrite IH; [|module]. apply geqb_eq in E. subst. module.
  Qed.
  Lemma g1v_mulv_sum g v : length g = length v -> g <> [] ->
    (let! l := G1v_MulV g v in G1v_Sum l) = Ret (msm v g).
  Proof.
    intros H Hg. rewrite g1v_mulv_spec by done. cbn [rbind]. rewrite g1v_sum_spec, gsum_gvmul; [done|].
    destruct g, v; simpl in *; try done.
  Qed.
  Lemma g2v_mulv_spec (a : list (G2 C)) x : (length a <= length x)%nat -> G2v_Mulv a x = Ret (zip_with (fun P x => gmul x P) a x).
  Proof. intros H. unfold G2v_Mulv. rewrite (proj2 (Nat.leb_le _ _) H). done. Qed.
  Lemma g1v_innerprod_spec g (q : list (G2 C)) : length g = length q -> g <> [] -> G1v_InnerProd g q = Ret (pairsum g q).
  Proof.
    intros H Hg. unfold G1v_InnerProd. rewrite (proj2 (Nat.eqb_eq _ _) H).
    destruct g as [|P g], q as [|Q q]; simpl in *; try discriminate; [done|]. f_equal.
    assert (G : forall s, fold_left (fun acc PQ => gadd acc (pair C (fst PQ) (snd PQ))) (zip g q) s = gadd s (pairsum g q)).
    { injection H as H. clear -H. revert q H. induction g as [|P g IH]; intros [|Q q] H s; simpl in *; try discriminate; [module|].
      rewrite IH by lia. module. }
    apply G.
  Qed.
  Lemma g1v_innerprod_1 (P : G1 C) (Q : G2 C) : G1v_InnerProd [P] [Q] = Ret (pair C P Q).
  Proof. reflexivity. Qed.

  Lemma rand_gen_vec_length n c : length (RandGenVec (C:=C) n c) = n.
  Proof. unfold RandGenVec. rewrite fmap_length, seq_length. done. Qed.
  Lemma rand_gen_vec_prefix n k c : RandGenVec (C:=C) n c `prefix_of` RandGenVec (n + k) c.
  Proof. unfold RandGenVec. exists (rand_gen c <$> seq (0 + n) k). rewrite seq_app, fmap_app. done. Qed.
End Curve.

(** ** FieldElementFromBytes *)
Definition digest_limbs (d : bytes) : limbs :=
  Limbs (be_val (take 8 d)) (be_val (take 8 (drop 8 d))) (be_val (take 8 (drop 16 d)))
        (be_val (take 8 (drop 24 d)) mod q3).

Lemma feFrom256Bits_spec d : length d = 32%nat -> feFrom256Bits d = Ret (digest_limbs d).
Proof.
  intros H. unfold feFrom256Bits. rewrite H. cbn [Nat.eqb].
  assert (E : (be_val (take 8 (drop 24 d)) mod q3 <? q3)%Z = true).
  { apply Z.ltb_lt. apply Z.mod_pos_bound. reflexivity. }
  cbv zeta. rewrite E. reflexivity.
Qed.

Lemma digest_limbs_range d : length d = 32%nat -> wf_bytes d ->
  let z := digest_limbs d in
  (0 <= l0 z < 2^64 /\ 0 <= l1 z < 2^64 /\ 0 <= l2 z < 2^64 /\ 0 <= l3 z < q3)%Z.
Proof.
  intros Hd Hw. cbn [l0 l1 l2 l3 digest_limbs].
  assert (B : forall k, (k <= 24)%nat -> (0 <= be_val (take 8 (drop k d)) < 2^64)%Z).
  { intros k Hk. assert (L : length (take 8 (drop k d)) = 8%nat) by (rewrite take_length, drop_length; lia).
    pose proof (be_val_bound (take 8 (drop k d)) ltac:(apply Forall_take, Forall_drop; exact Hw)) as Hb.
    rewrite L in Hb. exact Hb. }
  pose proof (B 0%nat ltac:(lia)) as B0. rewrite drop_0 in B0. pose proof (B 8%nat ltac:(lia)). pose proof (B 16%nat ltac:(lia)).
  repeat split; try lia; apply Z.mod_pos_bound; reflexivity.
Qed.

Lemma limbs_val_range z :
  (0 <= l0 z < 2^64 /\ 0 <= l1 z < 2^64 /\ 0 <= l2 z < 2^64 /\ 0 <= l3 z < q3 -> 0 <= limbs_val z < r)%Z.
Proof.
  intros (H0 & H1 & H2 & H3). unfold limbs_val.
  assert (R : (r = q0 + 2^64 * q1 + 2^128 * q2 + 2^192 * q3)%Z) by reflexivity. rewrite R.
  assert (0 <= q0 /\ 0 <= q1 /\ 0 <= q2)%Z by (unfold q0, q1, q2; lia).
  change (2^192)%Z with 6277101735386680763835789423207666416102355444464034512896%Z in *.
  change (2^128)%Z with 340282366920938463463374607431768211456%Z in *.
  change (2^64)%Z with 18446744073709551616%Z in *. lia.
Qed.

Lemma pow256_neq_0 : zr (2 ^ 256) <> 0.
Proof. intros H. apply (f_equal zv) in H. vm_compute in H. discriminate. Qed.

Lemma fe_spec d : length d = 32%nat ->
  FieldElementFromBytes d = Ret (zr (limbs_val (digest_limbs d)) / zr (2 ^ 256)).
Proof.
  intros H. unfold FieldElementFromBytes. rewrite feFrom256Bits_spec by done. cbn [rbind]. f_equal.
  unfold ToBigIntRegular. fold (Zr_Bytes (zr (limbs_val (digest_limbs d)) / zr (2 ^ 256))).
  rewrite be_val_Zr_Bytes, zr_zv. reflexivity.
Qed.
Lemma fe_panic d : length d <> 32%nat -> FieldElementFromBytes d = Panic.
Proof. intros H. unfold FieldElementFromBytes, feFrom256Bits. rewrite (proj2 (Nat.eqb_neq _ _) H). done. Qed.

(** The scalar obtained from a hash output: always defined. *)
Definition fe (d : bytes) : Zr := zr (limbs_val (digest_limbs d)) / zr (2 ^ 256).
Lemma fe_sha {C : Curve} bs : FieldElementFromBytes (sha256 C bs) = Ret (fe (sha256 C bs)).
Proof. apply fe_spec, sha256_len. Qed.

Lemma limbs_val_inj z z' :
  (0 <= l0 z < 2^64 /\ 0 <= l1 z < 2^64 /\ 0 <= l2 z < 2^64)%Z ->
  (0 <= l0 z' < 2^64 /\ 0 <= l1 z' < 2^64 /\ 0 <= l2 z' < 2^64)%Z ->
  limbs_val z = limbs_val z' -> z = z'.
Proof.
  destruct z as [a b c d], z' as [a' b' c' d']; unfold limbs_val; cbn [l0 l1 l2 l3]; intros H H' E.
  change (2^192)%Z with (18446744073709551616 * 18446744073709551616 * 18446744073709551616)%Z in *.
  change (2^128)%Z with (18446744073709551616 * 18446744073709551616)%Z in *.
  change (2^64)%Z with 18446744073709551616%Z in *.
  assert (a = a') by lia. assert (b = b') by lia. assert (c = c') by lia. assert (d = d') by lia. subst. done.
Qed.

Lemma fe_inj d d' : length d = 32%nat -> length d' = 32%nat -> wf_bytes d -> wf_bytes d' ->
  fe d = fe d' <-> digest_limbs d = digest_limbs d'.
Proof.
  intros Hd Hd' Hw Hw'. unfold fe. split; [|intros ->; done]. intros E.
  pose proof (digest_limbs_range d Hd Hw) as R. pose proof (digest_limbs_range d' Hd' Hw') as R'. cbv zeta in R, R'.
  pose proof (limbs_val_range _ R). pose proof (limbs_val_range _ R').
  assert (E' : zr (limbs_val (digest_limbs d)) = zr (limbs_val (digest_limbs d'))).
  { transitivity (zr (limbs_val (digest_limbs d)) / zr (2 ^ 256) * zr (2^256)); [field; apply pow256_neq_0|].
    rewrite E. field; apply pow256_neq_0. }
  apply zr_inj_small in E'; [|done..]. apply limbs_val_inj; [tauto..|done].
Qed.

(** ** Generator pre-images *)
Lemma byte_of_ascii_inj a b : byte_of_ascii a = byte_of_ascii b -> a = b.
Proof.
  unfold byte_of_ascii. intros H. apply N2Z.inj in H.
  rewrite <- (Ascii.ascii_N_embedding a), <- (Ascii.ascii_N_embedding b). f_equal. exact H.
Qed.
Lemma string_bytes_inj s s' : string_bytes s = string_bytes s' -> s = s'.
Proof.
  revert s'; induction s as [|a s IH]; intros [|b s'] H; cbn in H; try discriminate; [done|].
  injection H as Ha Hs. apply byte_of_ascii_inj in Ha. f_equal; [done|apply IH, Hs].
Qed.
Lemma string_bytes_app s s' : string_bytes (s +:+ s') = string_bytes s ++ string_bytes s'.
Proof.
  induction s as [|a s IH]; [done|]. change (String a s +:+ s') with (String a (s +:+ s')).
  cbn [string_bytes app]. f_equal. apply IH.
Qed.

Definition is_digit_byte (b : Z) : Prop := (48 <= b <= 57)%Z.
Lemma pretty_N_char_digit x : is_digit_byte (byte_of_ascii (pretty_N_char x)).
Proof. unfold pretty_N_char, is_digit_byte, byte_of_ascii. repeat case_match; vm_compute; split; discriminate. Qed.
Lemma pretty_N_go_digits x s : Forall is_digit_byte (string_bytes s) -> Forall is_digit_byte (string_bytes (pretty_N_go x s)).
Proof.
  revert s. induction (N.lt_wf_0 x) as [x _ IH]; intros s Hs.
  assert (x = 0 ∨ 0 < x)%N as [->|Hx] by lia; [rewrite pretty_N_go_0; done|].
  rewrite pretty_N_go_step by done. apply IH; [apply N.div_lt; lia|]. cbn [string_bytes].
  constructor; [apply pretty_N_char_digit|done].
Qed.
Lemma pretty_N_digits (x : N) : Forall is_digit_byte (string_bytes (pretty x)).
Proof.
  unfold pretty, pretty_N. destruct (decide (x = 0)%N).
  - cbn. constructor; [vm_compute; split; discriminate|constructor].
  - apply pretty_N_go_digits. constructor.
Qed.
Lemma pretty_N_go_nonempty x s : (s <> "" \/ 0 < x)%N -> pretty_N_go x s <> "".
Proof.
  revert s. induction (N.lt_wf_0 x) as [x _ IH]; intros s Hs.
  assert (x = 0 ∨ 0 < x)%N as [->|Hx] by lia; [rewrite pretty_N_go_0; destruct Hs; [done|lia]|].
  rewrite pretty_N_go_step by done. apply IH; [apply N.div_lt; lia|]. left. done.
Qed.
Lemma pretty_N_nonempty (x : N) : pretty x <> "".
Proof. unfold pretty, pretty_N. destruct (decide (x = 0)%N); [done|]. apply pretty_N_go_nonempty. right. lia. Qed.

(** A suffix without a separator is determined by the whole string. *)
Lemma sep_inj (sep : Z) a a' b b' : sep ∉ b -> sep ∉ b' -> a ++ sep :: b = a' ++ sep :: b' -> a = a' /\ b = b'.
Proof.
  revert a'. induction a as [|x a IH]; intros [|x' a'] Hb Hb' E; cbn in E.
  - injection E as E. done.
  - injection E as E1 E2. subst. destruct Hb. apply elem_of_app. right. left.
  - injection E as E1 E2. subst. destruct Hb'. apply elem_of_app. right. left.
  - injection E as E1 E2. subst. destruct (IH a' Hb Hb' E2) as [-> ->]. done.
Qed.

Lemma gen_preimage_inj c i c' i' : gen_preimage c i = gen_preimage c' i' -> c = c' /\ i = i'.
Proof.
  unfold gen_preimage. rewrite !string_bytes_app. intros H. apply app_inv_head in H.
  change (string_bytes " ") with [32%Z] in H. cbn [app] in H.
  assert (D : forall n : N, 32%Z ∉ string_bytes (pretty n)).
  { intros n Hin. pose proof (pretty_N_digits n) as Hd. rewrite Forall_forall in Hd. apply Hd in Hin.
    unfold is_digit_byte in Hin. lia. }
  apply sep_inj in H; [|apply D..]. destruct H as [Hc Hi].
  split; [apply string_bytes_inj, Hc|]. apply string_bytes_inj in Hi. apply (inj pretty) in Hi. lia.
Qed.
