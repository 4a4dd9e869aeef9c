(** Property C06, second part: vectors of group elements (package common). *)
From Verif Require Import Model_common Toy.
Local Open Scope Zr_scope.

(** ** Specification *)
(** The sum of a list of group elements *)
Definition group_sum {M : Grp} (l : list M) : M := foldr gadd gzero l.

Lemma group_sum_fold {M : Grp} (l : list M) : forall P, fold_left gadd l P = gadd P (group_sum l).
Proof.
  induction l as [|Q l IH]; intros P; cbn [fold_left group_sum foldr]; [by rewrite gadd_0_r|]. rewrite IH. by rewrite gadd_assoc.
Qed.
Lemma group_sum_skip {C : Curve} (l : list (G1 C)) : forall P, fold_left (fun acc Q => if geqb Q gzero then acc else gadd acc Q) l P = gadd P (group_sum l).
Proof.
  induction l as [|Q l IH]; intros P; cbn [fold_left group_sum foldr]; [by rewrite gadd_0_r|]. rewrite IH. fold (group_sum l).
  destruct (geqb Q gzero) eqn:E; [|by rewrite gadd_assoc]. apply geqb_eq in E as ->. by rewrite gadd_0_l.
Qed.

(** Sums: of all entries; the empty vector has none. *)
Theorem C06_point_sums (C : Curve) (a : list (G1 C)) (b : list (G2 C)) :
  G1v_Sum a = (if decide (a = []) then Panic else Ret (group_sum a)) /\
  G2v_Sum b = (if decide (b = []) then Panic else Ret (group_sum b)).
Proof.
  split.
  - destruct a as [|P a]; [by rewrite decide_True|]. rewrite decide_False by done. cbn [G1v_Sum group_sum foldr]. by rewrite group_sum_skip.
  - destruct b as [|P b]; [by rewrite decide_True|]. rewrite decide_False by done. cbn [G2v_Sum group_sum foldr]. by rewrite group_sum_fold.
Qed.
(** Entry by entry; adding panics exactly when the argument is shorter than the receiver, whose length the result has. *)
Theorem C06_points_pointwise (C : Curve) (a b : list (G1 C)) (c d : list (G2 C)) (x : Zr) (v : list Zr) :
  (if decide (length b < length a)%nat then G1v_Add a b = Panic else
     exists s, G1v_Add a b = Ret s /\ length s = length a /\ forall i P Q, a !! i = Some P -> b !! i = Some Q -> s !! i = Some (gadd P Q)) /\
  G1v_HadamardProd a b = G1v_Add a b /\
  (length (G1v_Mul a x) = length a /\ forall i, G1v_Mul a x !! i = gmul x <$> a !! i) /\
  (length (G1v_Neg a) = length a /\ forall i P, a !! i = Some P -> exists N, G1v_Neg a !! i = Some N /\ gadd P N = gzero) /\
  (length a = length v -> exists s, G1v_MulV a v = Ret s /\ length s = length a /\
     forall i P y, a !! i = Some P -> v !! i = Some y -> s !! i = Some (gmul y P)) /\
  (if decide (length d < length c)%nat then G2v_Add c d = Panic else
     exists s, G2v_Add c d = Ret s /\ length s = length c /\ forall i P Q, c !! i = Some P -> d !! i = Some Q -> s !! i = Some (gadd P Q)) /\
  (length (G2v_Mul c x) = length c /\ forall i, G2v_Mul c x !! i = gmul x <$> c !! i) /\
  (if decide (length v < length c)%nat then G2v_Mulv c v = Panic else
     exists s, G2v_Mulv c v = Ret s /\ length s = length c /\ forall i P y, c !! i = Some P -> v !! i = Some y -> s !! i = Some (gmul y P)).
Proof.
  unfold G1v_HadamardProd, G1v_Add, G1v_MulV, G2v_Add, G2v_Mulv.
  split; [|split; [done|split; [|split; [|split; [|split; [|split]]]]]].
  - destruct (decide (length b < length a)%nat); destruct (Nat.leb_spec (length a) (length b)); try lia; [done|]. eexists. split; [done|].
    split; [rewrite zip_with_length; lia|]. intros i P Q HP HQ. by rewrite lookup_zip_with, HP, HQ.
  - split; [apply fmap_length|]. intros i. apply list_lookup_fmap.
  - split; [apply fmap_length|]. intros i P HP. unfold G1v_Neg. rewrite list_lookup_fmap, HP. eexists. split; [reflexivity|]. by rewrite gadd_0_l, gadd_opp_r.
  - intros E. rewrite E, Nat.eqb_refl. eexists. split; [done|]. split; [rewrite zip_with_length; lia|]. intros i P y HP Hy. rewrite lookup_zip_with, HP, Hy. cbn. f_equal.
    destruct (zeqb y (zr 0)) eqn:E0; [|done]. apply zeqb_eq in E0 as ->. symmetry. apply gmul_0.
  - destruct (decide (length d < length c)%nat); destruct (Nat.leb_spec (length c) (length d)); try lia; [done|]. eexists. split; [done|].
    split; [rewrite zip_with_length; lia|]. intros i P Q HP HQ. by rewrite lookup_zip_with, HP, HQ.
  - split; [apply fmap_length|]. intros i. apply list_lookup_fmap.
  - destruct (decide (length v < length c)%nat); destruct (Nat.leb_spec (length c) (length v)); try lia; [done|]. eexists. split; [done|].
    split; [rewrite zip_with_length; lia|]. intros i P y HP Hy. by rewrite lookup_zip_with, HP, Hy.
Qed.
(** Duplicating: n copies of the only entry, and a panic unless there is exactly one. *)
Theorem C06_duplicate (C : Curve) (a : list (G1 C)) (b : list (G2 C)) n :
  (forall r, G1v_Duplicate a n = Ret r <-> exists P, a = [P] /\ length r = n /\ forall Q, Q ∈ r -> Q = P) /\ (G1v_Duplicate a n = Panic <-> length a <> 1%nat) /\
  (forall r, G2v_Duplicate b n = Ret r <-> exists P, b = [P] /\ length r = n /\ forall Q, Q ∈ r -> Q = P) /\ (G2v_Duplicate b n = Panic <-> length b <> 1%nat).
Proof.
  assert (Hr : forall (M : Grp) (P : M) r, replicate n P = r <-> length r = n /\ forall Q, Q ∈ r -> Q = P).
  { intros M P r. split.
    - intros <-. split; [apply replicate_length|]. intros Q HQ. by apply elem_of_replicate in HQ as [-> _].
    - intros [<- H]. symmetry. induction r as [|Q r IH]; [done|]. cbn [length replicate]. rewrite (H Q) by left. f_equal. apply IH. intros Q' HQ'. apply H. by right. }
  split; [|split; [|split]].
  - intros r. destruct a as [|P [|Q a]]; cbn [G1v_Duplicate]; [split; [done|intros (? & [=] & _)]| |split; [done|intros (? & [=] & _)]].
    split; [intros [= E]; exists P; split; [done|by apply Hr]|intros (P' & [= ->] & H); f_equal; by apply Hr].
  - destruct a as [|P [|Q a]]; cbn; split; done.
  - intros r. destruct b as [|P [|Q b]]; cbn [G2v_Duplicate]; [split; [done|intros (? & [=] & _)]| |split; [done|intros (? & [=] & _)]].
    split; [intros [= E]; exists P; split; [done|by apply Hr]|intros (P' & [= ->] & H); f_equal; by apply Hr].
  - destruct b as [|P [|Q b]]; cbn; split; done.
Qed.
(** The bytes of a vector of G1 elements are those of its entries in order, and determine it. *)
Theorem C06_point_bytes (C : Curve) (a b : list (G1 C)) :
  length (G1v_Bytes a) = (length a * g1_len C)%nat /\
  (forall i P, a !! i = Some P -> take (g1_len C) (drop (i * g1_len C) (G1v_Bytes a)) = enc1 C P) /\
  (G1v_Bytes a = G1v_Bytes b -> a = b).
Proof.
  assert (HL : forall a : list (G1 C), length (G1v_Bytes a) = (length a * g1_len C)%nat).
  { intros l. unfold G1v_Bytes. induction l as [|P l IH]; [done|]. rewrite fmap_cons. cbn [concat length]. rewrite app_length, enc1_len, IH. lia. }
  assert (HB : forall (a : list (G1 C)) i P, a !! i = Some P -> take (g1_len C) (drop (i * g1_len C) (G1v_Bytes a)) = enc1 C P).
  { intros l i. revert l. induction i as [|i IH]; intros [|Q l] P H; try done; unfold G1v_Bytes; rewrite fmap_cons; cbn [concat].
    - injection H as ->. rewrite Nat.mul_0_l, drop_0. rewrite take_app_alt by (by rewrite enc1_len). done.
    - rewrite Nat.mul_succ_l, Nat.add_comm, <- drop_drop, drop_app_alt by (by rewrite enc1_len). by apply IH. }
  split; [apply HL|]. split; [apply HB|]. intros E.
  assert (Hl : length a = length b) by (apply (f_equal length) in E; rewrite !HL in E; pose proof (g1_len_bound C); apply Nat.mul_cancel_r in E; [done|lia]).
  apply list_eq. intros i. destruct (a !! i) as [P|] eqn:Ha.
  - destruct (lookup_lt_is_Some_2 b i) as [Q HQ]; [rewrite <- Hl; by eapply lookup_lt_Some|]. rewrite HQ. f_equal.
    pose proof (HB a i P Ha) as H1. rewrite E, (HB b i Q HQ) in H1. apply (f_equal (dec1 C)) in H1. rewrite !dec1_enc1 in H1. congruence.
  - symmetry. apply lookup_ge_None. rewrite <- Hl. by apply lookup_ge_None.
Qed.
(** Pairing a vector of G1 elements with one of G2 elements: the sum of the pairings, linear in both. *)
Theorem C06_pairing_product (C : Curve) (a a' : list (G1 C)) (b : list (G2 C)) (x : Zr) :
  (G1v_InnerProd a b = Panic <-> length a <> length b \/ a = []) /\
  (length a = length b -> length a' = length b -> a <> [] ->
   exists p p', G1v_InnerProd a b = Ret p /\ p = group_sum (zip_with (pair C) a b) /\ G1v_InnerProd a' b = Ret p' /\
     (let! s := G1v_Add a a' in G1v_InnerProd s b) = Ret (gadd p p') /\
     G1v_InnerProd (G1v_Mul a x) b = Ret (gmul x p) /\ G1v_InnerProd a (G2v_Mul b x) = Ret (gmul x p)).
Proof.
  assert (HI : forall a b, length a = length b -> a <> [] -> G1v_InnerProd (C:=C) a b = Ret (group_sum (zip_with (pair C) a b))).
  { clear. intros a b E Hne. unfold G1v_InnerProd. rewrite E, Nat.eqb_refl. destruct a as [|P a], b as [|Q b]; try done. cbn [zip_with]. cbn [group_sum foldr].
    f_equal. generalize (pair C P Q). clear. revert b. induction a as [|P a IH]; intros [|Q b] R; cbn [zip_with fold_left foldr]; try (by rewrite gadd_0_r). rewrite IH. cbn [fst snd]. by rewrite gadd_assoc. }
  split.
  - unfold G1v_InnerProd. destruct (Nat.eqb_spec (length a) (length b)) as [E|E]; [|split; [by left|done]].
    destruct a as [|P a], b as [|Q b]; try done; cbn [zip_with]; split; try done; [by right|]. intros [?|?]; done.
  - intros E E' Hne. exists (group_sum (zip_with (pair C) a b)), (group_sum (zip_with (pair C) a' b)).
    assert (Hne' : a' <> []) by (intros ->; destruct b; [by destruct a|done]).
    split; [by apply HI|]. split; [done|]. split; [by apply HI|]. split; [|split].
    + unfold G1v_Add. destruct (Nat.leb_spec (length a) (length a')); [|lia]. cbn [rbind]. rewrite HI; [|rewrite zip_with_length; lia|destruct a, a'; done]. f_equal.
      clear -E E'. revert a' b E E'. induction a as [|P a IH]; intros [|P' a'] [|Q b] E E'; try done; cbn [zip_with group_sum foldr]; [by rewrite gadd_0_l|].
      fold (group_sum (zip_with (pair C) (zip_with gadd a a') b)). rewrite IH by (injection E; injection E'; congruence). rewrite pair_add_l. unfold group_sum. module.
    + rewrite HI; [|unfold G1v_Mul; by rewrite fmap_length|unfold G1v_Mul; by destruct a]. f_equal. clear. unfold G1v_Mul. revert b. induction a as [|P a IH]; intros [|Q b]; cbn [fmap list_fmap zip_with group_sum foldr]; try (by rewrite gmul_O).
      unfold group_sum in IH. unfold fmap in IH. rewrite IH, pair_mul_l, gmul_add_r. done.
    + rewrite HI; [|unfold G2v_Mul; by rewrite fmap_length|done]. f_equal. clear. unfold G2v_Mul. revert b. induction a as [|P a IH]; intros [|Q b]; cbn [fmap list_fmap zip_with group_sum foldr]; try (by rewrite gmul_O).
      unfold group_sum in IH. unfold fmap in IH. rewrite IH, pair_mul_r, gmul_add_r. done.
Qed.
Print Assumptions C06_point_sums.
Print Assumptions C06_points_pointwise.
Print Assumptions C06_duplicate.
Print Assumptions C06_point_bytes.
Print Assumptions C06_pairing_product.
(** Vectors of different entries, over any curve; the pairing product is not trivial. *)
Example C06_points_nonvacuous (C : Curve) : let a := [gen1 C; gmul (zr 2) (gen1 C)] in let b := [gen2 C; gmul (zr 3) (gen2 C)] in
  length a = length b /\ a <> [] /\ gen1 C <> gmul (zr 2) (gen1 C) /\ G1v_Sum a = Ret (gmul (zr 3) (gen1 C)) /\ G1v_Duplicate [gen1 C] 2 = Ret [gen1 C; gen1 C] /\
  G1v_InnerProd a b = Ret (gmul (zr 7) (pair C (gen1 C) (gen2 C))) /\ gmul (zr 7) (pair C (gen1 C) (gen2 C)) <> gzero.
Proof.
  cbn zeta. assert (H0 : gen1 C <> gzero).
  { intros E. apply (pair_nondeg C). rewrite E. rewrite <- (gmul_0 (gen1 C)), pair_mul_l. apply gmul_0. }
  split; [done|]. split; [done|]. split.
  - intros E. apply H0. assert (E' : gadd (gen1 C) (gopp (gmul (zr 2) (gen1 C))) = gzero) by (rewrite <- E; apply gadd_opp_r).
    assert (E'' : gmul (zr 1 - zr 2) (gen1 C) = gzero) by (rewrite <- E'; change (zr 1) with 1; module). apply gmul_eq_0 in E'' as [E''|E'']; [|done].
    exfalso. revert E''. vm_compute. discriminate.
  - split.
    + destruct (C06_point_sums C [gen1 C; gmul (zr 2) (gen1 C)] []) as [-> _]. rewrite decide_False by done. f_equal. unfold group_sum. cbn [foldr].
      replace (zr 3) with (1 + zr 2) by (vm_compute; reflexivity). module.
    + split; [done|]. split.
      * unfold G1v_InnerProd. cbn. f_equal. rewrite pair_mul_l, pair_mul_r. replace (zr 7) with (1 + zr 2 * zr 3) by (vm_compute; reflexivity). module.
      * intros E. apply gmul_eq_0 in E as [E|E]; [revert E; vm_compute; discriminate|by apply (pair_nondeg C)].
Qed.
