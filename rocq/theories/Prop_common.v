(** Properties C01–C06: package common. *)
From Verif Require Import Common_facts Toy.
Local Open Scope Zr_scope.

(** ** C01 *)
(** Every non-zero uint16: the function returns within 17 iterations, and says true exactly on 2^k, k>=1.
    For 0, no number of iterations is enough. *)
Theorem C01_is_power_of_two :
  (forall n, (1 <= n < 65536)%Z ->
    exists b, IsPowerOfTwo n = Ret b /\ (b = true <-> exists k, (1 <= k)%Z /\ n = (2 ^ k)%Z)) /\
  (forall iterations, IsPowerOfTwo_fuel iterations 0 = Hang).
Proof.
  split.
  - intros n Hn. apply IsPowerOfTwo_spec. lia.
  - intros it. unfold IsPowerOfTwo_fuel. cbn. apply is_pow2_loop_0.
Qed.
Print Assumptions C01_is_power_of_two.
Example C01_nonvacuous : IsPowerOfTwo 64 = Ret true /\ IsPowerOfTwo 63 = Ret false /\ IsPowerOfTwo 1 = Ret false /\ IsPowerOfTwo 32768 = Ret true.
Proof. repeat split. Qed.

(** ** C02 *)
(** [weighted l] = Σ l_i·2^i. *)
Definition weighted (l : list Z) : Z := foldr Z.add 0%Z (imap (fun i b => (b * 2 ^ Z.of_nat i)%Z) l).

Lemma weighted_bits_val l : weighted l = bits_val l.
Proof.
  unfold weighted.
  assert (G : forall k, foldr Z.add 0%Z (imap (fun i b => (b * 2 ^ Z.of_nat (k + i))%Z) l) = (2 ^ Z.of_nat k * bits_val l)%Z).
  { induction l as [|b l IH]; intros k; cbn [imap foldr bits_val]; [lia|].
    rewrite Nat.add_0_r.
    replace (imap ((fun (i : nat) (b : Z) => (b * 2 ^ Z.of_nat (k + i))%Z) ∘ S) l) with (imap (fun i b => (b * 2 ^ Z.of_nat (S k + i))%Z) l).
    - rewrite IH. rewrite Nat2Z.inj_succ, Z.pow_succ_r by lia. lia.
    - apply imap_ext. intros i x _. cbn. do 3 f_equal. lia. }
  specialize (G 0%nat). cbn [Nat.add] in G. rewrite G. change (2 ^ Z.of_nat 0)%Z with 1%Z. lia.
Qed.

Theorem C02_bits_exact : forall (n : Zr) (L : nat),
  exists l, Bits n L = Ret l /\
    Forall (fun b => b = 0 \/ b = 1)%Z l /\
    weighted l = zv n /\
    (* length = max(L, bit length of n): at least L, and longer only if the top bit is needed *)
    (L <= length l)%nat /\ (length l = L \/ (2 ^ (Z.of_nat (length l) - 1) <= zv n)%Z) /\
    BitsBigEndian n L = Ret (reverse l).
Proof.
  intros n L. destruct (Bits_spec n L) as (l & Hl & Hb & Hv & Hle & Hlen). exists l.
  repeat split; try done; [rewrite weighted_bits_val; done|]. unfold BitsBigEndian. rewrite Hl. done.
Qed.
Theorem C02_vec_bits : forall (v : list Zr) (L : nat),
  exists ls, mapM (fun x => Bits x L) v = Ret ls /\ Vec_Bits v L = Ret (concat ls).
Proof.
  intros v L. induction v as [|x v [ls [H1 H2]]]; [exists []; done|].
  destruct (Bits_spec x L) as (l & Hl & _). exists (l :: ls). cbn [mapM Vec_Bits concat].
  rewrite Hl, H1, H2. done.
Qed.
Print Assumptions C02_bits_exact.
Print Assumptions C02_vec_bits.
Example C02_nonvacuous : Bits (zr 6) 5 = Ret [0;1;1;0;0]%Z /\ Bits (zr 6) 2 = Ret [0;1;1]%Z.
Proof. split; vm_compute; reflexivity. Qed.

(** ** C03 *)
(** The i-th 8-byte group of a digest, big endian. *)
Definition group (d : bytes) (i : nat) : Z := be_val (take 8 (drop (8 * i) d)).
Definition Q3 : Z := 3486998266802970665.
(** The integer whose Montgomery form the code reads: 4 groups, least significant first, the last reduced. *)
Definition digest_int (d : bytes) : Z :=
  (group d 0 + 2 ^ 64 * group d 1 + 2 ^ 128 * group d 2 + 2 ^ 192 * (group d 3 mod Q3))%Z.

Lemma digest_int_limbs d : digest_int d = limbs_val (digest_limbs d).
Proof. reflexivity. Qed.

Lemma digest_limbs_zero d : length d = 32%nat -> wf_bytes d ->
  limbs_val (digest_limbs d) = 0%Z <-> take 24 d = replicate 24 0%Z /\ (group d 3 mod Q3 = 0)%Z.
Proof.
  intros Hl Hw. pose proof (digest_limbs_range d Hl Hw) as R. cbv zeta in R.
  assert (Z8 : forall l, wf_bytes l -> length l = 8%nat -> be_val l = 0%Z <-> l = replicate 8 0%Z).
  { intros l Hwl Hll. split; [|intros ->; reflexivity]. intros E.
    apply be_val_inj; [done|apply Forall_replicate; unfold wf_byte; lia|rewrite Hll; done|rewrite E; reflexivity]. }
  assert (T : take 24 d = take 8 d ++ take 8 (drop 8 d) ++ take 8 (drop 16 d)).
  { clear -Hl. do 32 (destruct d as [|? d]; [discriminate|]). reflexivity. }
  assert (W : forall k, wf_bytes (take 8 (drop k d))) by (intros; apply Forall_take, Forall_drop; done).
  assert (LL : forall k, (k <= 24)%nat -> length (take 8 (drop k d)) = 8%nat) by (intros; rewrite take_length, drop_length; lia).
  assert (T0 : take 8 d = take 8 (drop 0 d)) by (rewrite drop_0; done).
  unfold limbs_val. cbn [l0 l1 l2 l3 digest_limbs] in *. change q3 with Q3 in *.
  change (take 8 (drop 24 d)) with (take 8 (drop (8 * 3) d)) in *. fold (group d 3) in *. rewrite T. split.
  - intros E.
    assert (be_val (take 8 d) = 0 /\ be_val (take 8 (drop 8 d)) = 0 /\ be_val (take 8 (drop 16 d)) = 0 /\ group d 3 mod Q3 = 0)%Z as (A & B & D & F).
    { destruct R as (?&?&?&?). repeat split; nia. }
    split; [|done]. rewrite T0 in *.
    apply Z8 in A, B, D; [|auto with lia..]. rewrite A, B, D. reflexivity.
  - intros [E F]. rewrite F.
    change (replicate 24 0%Z) with (replicate 8 0%Z ++ replicate 8 0%Z ++ replicate 8 0%Z) in E.
    rewrite T0 in *.
    apply app_inj_1 in E; [|rewrite LL by lia; done]. destruct E as [E0 E].
    apply app_inj_1 in E; [|rewrite LL by lia; done]. destruct E as [E1 E2].
    apply Z8 in E0, E1, E2; [|auto with lia..]. rewrite E0, E1, E2. reflexivity.
Qed.

Theorem C03_field_element_total : forall d, length d = 32%nat -> wf_bytes d ->
  (* the limbs are those read: the conditional subtraction is not taken *)
  feFrom256Bits d = Ret (Limbs (group d 0) (group d 1) (group d 2) (group d 3 mod Q3)%Z) /\
  exists x, FieldElementFromBytes d = Ret x /\
    (0 <= digest_int d < r)%Z /\
    (zv x * 2 ^ 256 mod r = digest_int d)%Z /\
    (zv x = 0%Z <-> take 24 d = replicate 24 0%Z /\ (group d 3 mod Q3 = 0)%Z).
Proof.
  intros d Hl Hw. split; [rewrite feFrom256Bits_spec by done; reflexivity|].
  exists (fe d). split; [apply fe_spec; done|].
  pose proof (limbs_val_range _ (digest_limbs_range d Hl Hw)) as R. rewrite <- digest_int_limbs in R.
  split; [exact R|].
  assert (E : fe d * zr (2 ^ 256) = zr (digest_int d)).
  { unfold fe. rewrite <- digest_int_limbs. field. apply pow256_neq_0. }
  split.
  - apply (f_equal zv) in E. rewrite zv_zmul, !zv_zr in E.
    rewrite (Z.mod_small (digest_int d)) in E by exact R. rewrite <- E. rewrite Z.mul_mod_idemp_r by discriminate. reflexivity.
  - rewrite <- digest_limbs_zero by done. rewrite <- digest_int_limbs. split; intros H.
    + assert (H0 : fe d = 0) by (apply Zr_eq; rewrite H; reflexivity). rewrite H0 in E.
      rewrite zmul_0_l in E. symmetry in E. apply zr_inj_small in E; [done|exact R|pose proof r_pos; lia].
    + rewrite H in E. change (zr 0) with 0 in E. apply zmul_eq_0 in E. destruct E as [E|E]; [rewrite E; reflexivity|].
      destruct (pow256_neq_0 E).
Qed.
Theorem C03_other_lengths_panic : forall d, length d <> 32%nat -> FieldElementFromBytes d = Panic.
Proof. exact fe_panic. Qed.
Print Assumptions C03_field_element_total.
Print Assumptions C03_other_lengths_panic.
Example C03_nonvacuous : let d := replicate 31 0%Z ++ [1%Z] in length d = 32%nat /\ wf_bytes d /\ digest_int d = (2 ^ 192)%Z.
Proof. split; [done|]. split; [|vm_compute; reflexivity]. apply Forall_app. split; [apply Forall_replicate|constructor; [|constructor]]; unfold wf_byte; lia. Qed.

(** ** C04 *)
Lemma split_digest (d : bytes) : length d = 32%nat -> d = take 24 d ++ take 8 (drop 24 d).
Proof. intros Hl. rewrite <- (take_drop 24 d) at 1. f_equal. rewrite take_ge; [done|rewrite drop_length; lia]. Qed.

Theorem C04_challenge_collisions : forall d d', length d = 32%nat -> length d' = 32%nat -> wf_bytes d -> wf_bytes d' ->
  FieldElementFromBytes d = FieldElementFromBytes d' <->
  take 24 d = take 24 d' /\ (group d 3 mod Q3 = group d' 3 mod Q3)%Z.
Proof.
  intros d d' Hl Hl' Hw Hw'. rewrite !fe_spec by done. fold (fe d) (fe d').
  assert (E0 : Ret (fe d) = Ret (fe d') <-> fe d = fe d') by (split; [congruence|intros ->; done]). rewrite E0, fe_inj by done.
  assert (T : forall d : bytes, length d = 32%nat -> take 24 d = take 8 (drop 0 d) ++ take 8 (drop 8 d) ++ take 8 (drop 16 d)).
  { clear. intros d Hl. do 32 (destruct d as [|? d]; [discriminate|]). reflexivity. }
  assert (W : forall k (d : bytes), wf_bytes d -> wf_bytes (take 8 (drop k d))) by (intros; apply Forall_take, Forall_drop; done).
  assert (LL : forall k (d : bytes), length d = 32%nat -> (k <= 24)%nat -> length (take 8 (drop k d)) = 8%nat) by (intros; rewrite take_length, drop_length; lia).
  rewrite (T d), (T d') by done.
  split.
  - intros E. unfold digest_limbs in E. injection E as A B D F.
    split; [|exact F]. rewrite <- (drop_0 d), <- (drop_0 d') in A.
    apply be_val_inj in A, B, D; [|first [apply W; done|rewrite !LL by (done || lia); done]..].
    rewrite drop_0 in A. rewrite !drop_0. rewrite drop_0 in A. rewrite A, B, D. done.
  - intros [E F]. apply app_inj_1 in E; [|rewrite !LL by (done || lia); done]. destruct E as [E1 E].
    apply app_inj_1 in E; [|rewrite !LL by (done || lia); done]. destruct E as [E2 E3].
    rewrite !drop_0 in E1. unfold digest_limbs. rewrite E1, E2, E3. f_equal. exact F.
Qed.

(** Every challenge value that occurs is hit by exactly 5 or 6 digests. *)
Theorem C04_preimage_count : forall d, length d = 32%nat -> wf_bytes d ->
  exists l : list bytes, NoDup l /\ (length l = 5 \/ length l = 6)%nat /\
    forall d', (d' ∈ l <-> length d' = 32%nat /\ wf_bytes d' /\ FieldElementFromBytes d' = FieldElementFromBytes d).
Proof.
  intros d Hl Hw. set (m := (group d 3 mod Q3)%Z).
  assert (Hm : (0 <= m < Q3)%Z) by (apply Z.mod_pos_bound; reflexivity).
  set (mk := fun j : nat => take 24 d ++ be_bytes 8 (m + Z.of_nat j * Q3)).
  set (n := if (m + 5 * Q3 <? 2 ^ 64)%Z then 6%nat else 5%nat).
  exists (mk <$> seq 0 n).
  assert (Hn : (forall j, (j < n)%nat <-> 0 <= m + Z.of_nat j * Q3 < 2 ^ 64)%Z).
  { intros j. unfold n. unfold Q3 in *. destruct (Z.ltb_spec (m + 5 * 3486998266802970665) (2 ^ 64)) as [H|H];
    change (2^64)%Z with 18446744073709551616%Z in *; lia. }
  assert (Hlen : forall j, length (mk j) = 32%nat).
  { intros j. unfold mk. rewrite app_length, take_length, be_bytes_length. lia. }
  assert (Hwf : forall j, wf_bytes (mk j)).
  { intros j. unfold mk. apply Forall_app. split; [apply Forall_take; done|apply be_bytes_wf]. }
  assert (Hg : forall j, (j < n)%nat -> group (mk j) 3 = (m + Z.of_nat j * Q3)%Z).
  { intros j Hj. unfold group, mk. rewrite drop_app_ge by (rewrite take_length; lia).
    rewrite take_length, Hl. cbn [Nat.mul Nat.add Nat.min Nat.sub]. rewrite drop_0.
    rewrite take_ge by (rewrite be_bytes_length; lia). apply be_val_be_bytes. apply Hn in Hj. exact Hj. }
  assert (Ht : forall j, take 24 (mk j) = take 24 d).
  { intros j. unfold mk. rewrite take_app_le by (rewrite take_length; lia). rewrite take_take. done. }
  split; [|split].
  - apply NoDup_fmap_2_strong; [|apply NoDup_seq]. intros x y Hx Hy E. apply elem_of_seq in Hx, Hy.
    apply (f_equal (fun d => group d 3)) in E. rewrite !Hg in E by lia. unfold Q3 in E. lia.
  - rewrite fmap_length, seq_length. unfold n. destruct (_ <? _)%Z; [right|left]; done.
  - intros d'. rewrite elem_of_list_fmap. split.
    + intros [j [-> Hj]]. apply elem_of_seq in Hj. split; [done|]. split; [done|].
      apply C04_challenge_collisions; [done..|]. split; [apply Ht|]. rewrite Hg by lia.
      rewrite Z.mod_add by discriminate. unfold m. rewrite Z.mod_mod by discriminate. done.
    + intros (Hl' & Hw' & E). apply C04_challenge_collisions in E; [|done..]. destruct E as [E F].
      fold m in F. set (g := group d' 3) in *.
      assert (Hg' : (0 <= g < 2 ^ 64)%Z).
      { assert (L : length (take 8 (drop 24 d')) = 8%nat) by (rewrite take_length, drop_length; lia).
        pose proof (be_val_bound (take 8 (drop 24 d')) ltac:(apply Forall_take, Forall_drop; exact Hw')) as Hb.
        rewrite L in Hb. exact Hb. }
      pose proof (Z.div_mod g Q3 ltac:(discriminate)) as Eg. rewrite F in Eg.
      pose proof (Z.div_pos g Q3 ltac:(lia) ltac:(reflexivity)).
      exists (Z.to_nat (g / Q3)). split.
      * unfold mk. rewrite (split_digest d') by done. rewrite E. f_equal. rewrite Z2Nat.id by done.
        replace (m + g / Q3 * Q3)%Z with g by lia.
        apply be_val_inj; [apply Forall_take, Forall_drop; done|apply be_bytes_wf|rewrite be_bytes_length, take_length, drop_length; lia|].
        rewrite be_val_be_bytes; [reflexivity|exact Hg'].
      * apply elem_of_seq. split; [lia|]. apply Hn. rewrite Z2Nat.id by done. lia.
Qed.
Print Assumptions C04_challenge_collisions.
Print Assumptions C04_preimage_count.
(** Two different digests with the same challenge: 0…0 and 0…0‖q3. *)
Example C04_nonvacuous : let d := replicate 32 0%Z in let d' := replicate 24 0%Z ++ be_bytes 8 Q3 in
  d <> d' /\ take 24 d = take 24 d' /\ (group d 3 mod Q3 = group d' 3 mod Q3)%Z.
Proof. vm_compute. repeat split; discriminate. Qed.

(** ** C05 *)
Theorem C05_generators_domain_separated : forall c i c' i',
  (c, i) <> (c', i') -> gen_preimage c i <> gen_preimage c' i'.
Proof. intros c i c' i' H E. apply gen_preimage_inj in E. destruct E as [-> ->]. done. Qed.
Theorem C05_generator_vectors : forall (C : Curve) n k c,
  length (RandGenVec (C:=C) n c) = n /\ RandGenVec (C:=C) n c `prefix_of` RandGenVec (n + k) c /\
  (forall i, (i < n)%nat -> exists h h', h = sha256 C (gen_preimage c i) /\ h' = sha256 C h /\
      RandGenVec (C:=C) n c !! i = Some (hash_to_g1 C (h ++ h'))).
Proof.
  intros C n k c. split; [apply rand_gen_vec_length|]. split; [apply rand_gen_vec_prefix|].
  intros i Hi. do 2 eexists. split; [reflexivity|]. split; [reflexivity|].
  unfold RandGenVec. rewrite list_lookup_fmap, lookup_seq_lt by done. done.
Qed.
Print Assumptions C05_generators_domain_separated.
Print Assumptions C05_generator_vectors.
Example C05_nonvacuous : ("g", 11%nat) <> ("g 1", 1%nat) /\ gen_preimage "g" 11 <> gen_preimage "g 1" 1.
Proof. split; [done|]. apply C05_generators_domain_separated. done. Qed.

(** ** C06 *)
Fixpoint interleave (a b : list Zr) : list Zr :=
  match a, b with x :: a, y :: b => x :: y :: interleave a b | _, _ => [] end.

Lemma evens_odds_interleave v : Nat.even (length v) = true -> interleave (evens_loop v) (odds_loop v) = v.
Proof.
  revert v. fix IH 1. intros [|x [|y v]] H; [done|discriminate|]. cbn [evens_loop odds_loop interleave].
  rewrite IH by exact H. done.
Qed.

Theorem C06_inner_product_laws : forall a a' b (x : Zr), length a = length b -> length a' = length b ->
  exists p p', Vec_InnerProd a b = Ret p /\ Vec_InnerProd a' b = Ret p' /\
    Vec_InnerProd b a = Ret p /\
    (let! s := Vec_Add a a' in Vec_InnerProd s b) = Ret (p + p') /\
    Vec_InnerProd (Vec_Mul a x) b = Ret (p * x) /\
    p = zsum (zip_with zmul a b).
Proof.
  intros a a' b x H H'. exists (dot a b), (dot a' b).
  rewrite !vec_innerprod_spec, vec_add_spec by (rewrite ?vec_mul_spec, ?vscale_length; congruence). cbn [rbind].
  rewrite vec_innerprod_spec, dot_vadd_l, vec_mul_spec, dot_vscale_l, (dot_comm b a) by (rewrite ?vadd_length; congruence).
  repeat split; [f_equal; ring|]. clear. revert b. induction a as [|y a IH]; intros [|z b]; cbn; try done. rewrite IH. done.
Qed.
Theorem C06_pointwise : forall a b (x : Zr) i y z, length a = length b -> a !! i = Some y -> b !! i = Some z ->
  exists s d h, Vec_Add a b = Ret s /\ Vec_Sub a b = Ret d /\ Vec_HadamardProd a b = Ret h /\
    s !! i = Some (y + z) /\ d !! i = Some (y - z) /\ h !! i = Some (y * z) /\ Vec_Mul a x !! i = Some (y * x) /\
    length s = length a /\ length d = length a /\ length h = length a /\ length (Vec_Mul a x) = length a.
Proof.
  intros a b x i y z H Hy Hz. exists (vadd a b), (vsub a b), (vmul a b).
  rewrite vec_add_spec, vec_sub_spec, vec_hadamard_spec, vec_mul_spec by done.
  rewrite vadd_length, vsub_length, vmul_length, vscale_length by done.
  unfold vadd, vsub, vmul, vscale. rewrite !lookup_zip_with, list_lookup_fmap, Hy, Hz. cbn. repeat split. f_equal. ring.
Qed.
Theorem C06_sub_inverse_of_add : forall a b, length a = length b ->
  (let! s := Vec_Add a b in Vec_Sub s b) = Ret a.
Proof.
  intros a b H. rewrite vec_add_spec by done. cbn [rbind]. rewrite vec_sub_spec by (rewrite vadd_length; congruence). f_equal.
  revert b H; induction a as [|x a IH]; intros [|y b] H; cbn in *; try done. f_equal; [ring|apply IH; lia].
Qed.
Theorem C06_reverse_involution : forall v, Vec_Reverse (Vec_Reverse v) = v.
Proof. intros v. apply reverse_involutive. Qed.
Theorem C06_evens_odds : forall v,
  if Nat.even (length v)
  then exists e o, Vec_Evens v = Ret e /\ Vec_Odds v = Ret o /\ interleave e o = v
  else Vec_Evens v = Panic /\ Vec_Odds v = Panic.
Proof.
  intros v. unfold Vec_Evens, Vec_Odds. destruct (Nat.even (length v)) eqn:E; [|done].
  do 2 eexists. split; [done|]. split; [done|]. apply evens_odds_interleave, E.
Qed.
Theorem C06_power_series : forall n x, length (PowerSeries n x) = n /\
  forall i, (i < n)%nat -> PowerSeries n x !! i = Some (x ^ i).
Proof. intros n x. split; [apply power_series_length|apply power_series_lookup]. Qed.
Theorem C06_length_checks : forall (C : Curve) a b (g : list (G1 C)),
  (Vec_Add a b = Panic <-> length a <> length b) /\
  (Vec_Sub a b = Panic <-> length a <> length b) /\
  (Vec_InnerProd a b = Panic <-> length a <> length b) /\
  (Vec_HadamardProd a b = Panic <-> length a <> length b) /\
  (G1v_MulV g a = Panic <-> length g <> length a) /\
  (Vec_Exp a g = Panic <-> length a <> length g \/ a = []).
Proof.
  intros C a b g.
  unfold Vec_Add, Vec_Sub, Vec_InnerProd, Vec_HadamardProd, G1v_MulV, Vec_Exp.
  destruct (Nat.eqb_spec (length a) (length b)) as [E|E];
  destruct (Nat.eqb_spec (length g) (length a)) as [E'|E'];
  destruct (Nat.eqb_spec (length a) (length g)) as [E''|E'']; try congruence;
  repeat split; intros H; try done; try congruence; try (left; congruence).
  all: try (destruct a as [|x a], g as [|P g]; cbn in *; try done; try (right; done)).
  all: destruct H as [H|H]; try done; congruence.
Qed.
Theorem C06_msm : forall (C : Curve) v (g : list (G1 C)), length v = length g -> v <> [] ->
  Vec_Exp v g = Ret (msm v g) /\ (let! l := G1v_MulV g v in G1v_Sum l) = Ret (msm v g).
Proof.
  intros C v g H Hv. split; [apply vec_exp_spec|apply g1v_mulv_sum]; try done; destruct v, g; done.
Qed.
Print Assumptions C06_inner_product_laws.
Print Assumptions C06_pointwise.
Print Assumptions C06_sub_inverse_of_add.
Print Assumptions C06_evens_odds.
Print Assumptions C06_power_series.
Print Assumptions C06_length_checks.
Print Assumptions C06_msm.
Example C06_nonvacuous : Vec_InnerProd [zr 2; zr 3] [zr 5; zr 7] = Ret (zr 31).
Proof. rewrite vec_innerprod_spec by done. f_equal. Qed.
