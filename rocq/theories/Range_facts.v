(** Closed forms of the range proof: the vector f and the prover and verifier equations. *)
From Verif Require Export Model_range.
Local Open Scope Zr_scope.

(** ** The vector f that the range proof builds from the challenges *)
Fixpoint zprod (l : list Zr) : Zr := match l with [] => 1 | x :: l => x * zprod l end.
(** product of the entries of l at the positions of the set bits of i *)
Definition bitprod (l : list Zr) (i : nat) : Zr :=
  zprod (imap (fun j x => if Nat.testbit i j then x else 1) l).
Lemma zprod_app a b : zprod (a ++ b) = zprod a * zprod b.
Proof. induction a as [|x a IH]; cbn; [ring|]. rewrite IH. ring. Qed.
Lemma fold_left_zmul l x : fold_left zmul l x = x * zprod l.
Proof. revert x; induction l as [|y l IH]; intros x; cbn; [ring|]. rewrite IH. ring. Qed.
Lemma bitprod_snoc l x i : bitprod (l ++ [x]) i = bitprod l i * (if Nat.testbit i (length l) then x else 1).
Proof. unfold bitprod. rewrite imap_app, zprod_app. cbn. rewrite Nat.add_0_r. destruct (Nat.testbit _ _); ring. Qed.
Lemma bitprod_ext l i i' : (forall j, (j < length l)%nat -> Nat.testbit i j = Nat.testbit i' j) -> bitprod l i = bitprod l i'.
Proof.
  intros H. unfold bitprod. f_equal. apply list_eq. intros j. rewrite !list_lookup_imap.
  destruct (l !! j) eqn:E; [|done]. cbn. rewrite H; [done|]. apply lookup_lt_is_Some. by eexists.
Qed.

Lemma testbit_small i k : (i < 2 ^ k)%nat -> Nat.testbit i k = false.
Proof. intros H. rewrite Nat.testbit_eqb, Nat.div_small by done. done. Qed.
Lemma testbit_big i k : (i < 2 ^ k)%nat -> Nat.testbit (2 ^ k + i) k = true.
Proof.
  intros H. rewrite Nat.testbit_eqb. replace (2 ^ k + i)%nat with (i + 1 * 2 ^ k)%nat by lia.
  rewrite Nat.div_add by (apply Nat.pow_nonzero; lia). rewrite Nat.div_small by done. done.
Qed.
Lemma testbit_low i k j : (j < k)%nat -> Nat.testbit (2 ^ k + i) j = Nat.testbit i j.
Proof.
  intros H. rewrite !Nat.testbit_eqb. replace (2 ^ k + i)%nat with (i + 2 ^ (k - j) * 2 ^ j)%nat.
  2:{ rewrite <- Nat.pow_add_r. replace (k - j + j)%nat with k by lia. lia. }
  rewrite Nat.div_add by (apply Nat.pow_nonzero; lia).
  replace (k - j)%nat with (S (k - j - 1)) by lia. cbn [Nat.pow].
  replace (i / 2 ^ j + 2 * 2 ^ (k - j - 1))%nat with (i / 2 ^ j + 2 ^ (k - j - 1) * 2)%nat by lia.
  rewrite Nat.mod_add by lia. done.
Qed.

Lemma vco_lookup xs i : (i < 2 ^ length xs)%nat -> vco xs !! i = Some (bitprod (reverse xs) i).
Proof.
  revert i. induction xs as [|x xs IH]; intros i Hi.
  - cbn in Hi. replace i with 0%nat by lia. done.
  - unfold vco in *. cbn [fmap list_fmap kron]. rewrite reverse_cons, bitprod_snoc, reverse_length.
    set (K := kron _) in *.
    assert (LK : length K = (2 ^ length xs)%nat) by (unfold K; rewrite kron_length, fmap_length; done).
    cbn [length Nat.pow] in Hi.
    destruct (decide (i < 2 ^ length xs)%nat) as [H|H].
    + rewrite lookup_app_l by (rewrite vscale_length; lia). unfold vscale. rewrite list_lookup_fmap, IH by done. cbn.
      rewrite testbit_small by done. f_equal. ring.
    + rewrite lookup_app_r by (rewrite vscale_length; lia). rewrite vscale_length, LK.
      unfold vscale. rewrite list_lookup_fmap, IH by lia. cbn.
      replace i with (2 ^ length xs + (i - 2 ^ length xs))%nat at 2 3 by lia.
      rewrite testbit_big by lia. f_equal.
      rewrite (bitprod_ext _ (2 ^ length xs + _) (i - 2 ^ length xs)%nat); [ring|].
      intros j Hj. rewrite reverse_length in Hj. apply testbit_low. done.
Qed.
Lemma vco_bitprod xs : vco xs = bitprod (reverse xs) <$> seq 0 (2 ^ length xs).
Proof.
  apply list_eq. intros i. destruct (decide (i < 2 ^ length xs)%nat) as [H|H].
  - rewrite vco_lookup by done. rewrite list_lookup_fmap, lookup_seq_lt by done. done.
  - rewrite !lookup_ge_None_2; [done|rewrite fmap_length, seq_length; lia|rewrite vco_length; lia].
Qed.

Definition lbits (L : nat) (i : nat) : list Z := (fun j => Z.b2z (Nat.testbit i j)) <$> seq 0 L.
Lemma lbits_S L i : lbits (S L) i = Z.b2z (Nat.odd i) :: lbits L (Nat.div2 i).
Proof.
  unfold lbits. cbn [seq fmap list_fmap]. f_equal. rewrite <- seq_shift, <- list_fmap_compose.
  apply list_fmap_ext. intros j x Hx. cbn. done.
Qed.
Lemma bd_loop_spec fuel : forall (i : nat) pos L, (pos <= L)%nat -> (i < 2 ^ (L - pos))%nat -> (L - pos < fuel)%nat ->
  bd_loop fuel (Z.of_nat i) pos L = Ret (lbits (L - pos) i).
Proof.
  induction fuel as [|fuel IH]; intros i pos L Hp Hi Hf; [lia|]. cbn [bd_loop].
  destruct (Z.eqb_spec (Z.of_nat i) 0) as [E|E].
  - replace i with 0%nat by lia. f_equal. unfold lbits. symmetry. apply list_eq. intros j.
    destruct (decide (j < L - pos)%nat) as [H|H].
    + rewrite list_lookup_fmap, lookup_seq_lt, lookup_replicate_2 by done. cbn. rewrite Nat.bits_0. done.
    + rewrite !lookup_ge_None_2; [done|rewrite replicate_length; lia|rewrite fmap_length, seq_length; lia].
  - destruct (decide (L = pos)) as [->|Hne]; [rewrite Nat.sub_diag in Hi; cbn in Hi; lia|].
    rewrite (proj2 (Nat.ltb_lt _ _)) by lia. rewrite shiftr_1_div2, land_1_mod2.
    replace (Z.of_nat i / 2)%Z with (Z.of_nat (Nat.div2 i)) by (rewrite Nat.div2_div, Nat2Z.inj_div; done).
    replace (L - pos)%nat with (S (L - S pos)) in * by lia.
    rewrite IH; [|lia| |lia].
    + cbn [rbind]. rewrite lbits_S. f_equal. f_equal. change 2%Z with (Z.of_nat 2). rewrite <- Nat2Z.inj_mod, <- Nat.bit0_mod, Nat.bit0_odd. destruct (Nat.odd i); done.
    + cbn [Nat.pow] in Hi. rewrite Nat.div2_div. apply Nat.div_lt_upper_bound; lia.
Qed.

Lemma Len16_pow2 k : (1 <= k)%nat -> Len16 (2 ^ Z.of_nat k - 1) = k.
Proof.
  intros Hk. unfold Len16. assert (2 ^ 1 <= 2 ^ Z.of_nat k)%Z by (apply Z.pow_le_mono_r; lia).
  rewrite (proj2 (Z.eqb_neq _ _)) by lia. rewrite Z.sub_1_r, Z.log2_pred_pow2 by lia. lia.
Qed.
Lemma uint16_pow2 k : (k < 16)%nat -> uint16 (2 ^ k) = (2 ^ Z.of_nat k)%Z.
Proof.
  intros Hk. unfold uint16. rewrite Nat2Z.inj_pow. apply Z.mod_small. split; [apply Z.pow_nonneg; lia|].
  apply Z.pow_lt_mono_r; lia.
Qed.
Lemma bitDecomposition_pow2 k i : (1 <= k < 16)%nat -> (i < 2 ^ k)%nat ->
  bitDecomposition (Z.of_nat i) ((uint16 (2 ^ k) - 1) mod 2 ^ 16) = Ret (lbits k i).
Proof.
  intros Hk Hi. unfold bitDecomposition. rewrite uint16_pow2 by lia.
  assert (2 ^ 1 <= 2 ^ Z.of_nat k)%Z by (apply Z.pow_le_mono_r; lia).
  assert (2 ^ Z.of_nat k < 2 ^ 16)%Z by (apply Z.pow_lt_mono_r; lia).
  rewrite Z.mod_small by lia. rewrite Len16_pow2 by lia. rewrite bd_loop_spec; rewrite ?Nat.sub_0_r; [done|lia..].
Qed.
Lemma zip_lbits l i : zip_with (fun x e => if (e =? 0)%Z then zr 1 else x) l (lbits (length l) i) =
  imap (fun j x => if Nat.testbit i j then x else 1) l.
Proof.
  apply list_eq. intros j. rewrite list_lookup_imap, lookup_zip_with. unfold lbits.
  destruct (l !! j) as [x|] eqn:E; [|done]. cbn. pose proof (lookup_lt_Some _ _ _ E).
  rewrite list_lookup_fmap, lookup_seq_lt by done. cbn. destruct (Nat.testbit i j); done.
Qed.
Lemma vec_product_spec l : l <> [] -> Vec_Product l = Ret (zprod l).
Proof. destruct l as [|x l]; [done|]. intros _. cbn [Vec_Product zprod]. rewrite fold_left_zmul. done. Qed.
Lemma compute_f_spec k xs : length xs = k -> (1 <= k < 16)%nat -> compute_f (2 ^ k) (Vec_Reverse xs) = Ret (vco xs).
Proof.
  intros Hxs Hk. unfold compute_f. 
  assert (Hn : Z.to_nat (uint16 (2 ^ k)) = (2 ^ k)%nat)
    by (rewrite uint16_pow2 by lia; change 2%Z with (Z.of_nat 2); rewrite <- Nat2Z.inj_pow, Nat2Z.id; done).
  rewrite Hn.
  rewrite vco_bitprod, Hxs. apply mapM_ret. intros i Hi. apply elem_of_seq in Hi.
  rewrite bitDecomposition_pow2 by lia. cbn [rbind]. unfold Vec_Reverse, Vec_PowBitVec.
  assert (HL : length (reverse xs) = k) by (rewrite reverse_length; done).
  assert (Hb : length (lbits k i) = k) by (unfold lbits; rewrite fmap_length, seq_length; done).
  rewrite (proj2 (Nat.leb_le _ _)) by lia. cbn [rbind]. rewrite <- HL at 1. rewrite zip_lbits.
  apply vec_product_spec. apply nonempty_len. rewrite imap_length. lia.
Qed.

(** ** The vectors of the range proof *)
Definition dblock (fi : Zr) : list Zr := (fun j => zr 2 ^ j * fi) <$> seq 0 rp_m.
Definition dD (f : list Zr) : list Zr := concat (dblock <$> f).
Definition dvec (f : list Zr) (x : Zr) : list Zr := dD f ++ vscale x f.
Lemma dblock_length fi : length (dblock fi) = rp_m.
Proof. unfold dblock. rewrite fmap_length, seq_length. done. Qed.
Lemma dD_length f : length (dD f) = (length f * rp_m)%nat.
Proof.
  unfold dD. induction f as [|fi f IH]; [done|]. cbn [fmap list_fmap concat length]. rewrite app_length, dblock_length, IH.
  rewrite Nat.mul_succ_l. lia.
Qed.
Lemma dvec_length f x : length (dvec f x) = (length f * rp_m + length f)%nat.
Proof. unfold dvec. rewrite app_length, dD_length, vscale_length. done. Qed.
Lemma computeD_spec n f x : length f = n -> computeD n rp_m f x = Ret (dvec f x).
Proof.
  intros <-. unfold computeD.
  assert (H : mapM (fun i => let! fi := idx f i in Ret ((fun j => Pow2 j * fi) <$> seq 0 rp_m)) (seq 0 (length f)) = Ret (dblock <$> f)).
  { rewrite (mapM_ret _ (fun i => dblock (nth i f 0))).
    - f_equal. apply list_eq. intros i. rewrite !list_lookup_fmap.
      destruct (decide (i < length f)%nat) as [Hi|Hi].
      + rewrite lookup_seq_lt by done. destruct (f !! i) as [fi|] eqn:E; [|apply lookup_ge_None in E; lia].
        cbn. rewrite (nth_lookup_Some _ _ _ _ E). done.
      + rewrite !lookup_ge_None_2; [done|lia|rewrite seq_length; lia].
    - intros i Hi. apply elem_of_seq in Hi. destruct (f !! i) as [fi|] eqn:E; [|apply lookup_ge_None in E; lia].
      rewrite (idx_ret _ _ _ E). cbn [rbind]. rewrite (nth_lookup_Some _ _ _ _ E). done. }
  rewrite H. cbn [rbind]. rewrite vec_mul_spec. done.
Qed.

Definition zbits (l : list Z) : Prop := Forall (fun b => b = 0 \/ b = 1)%Z l.
Lemma zr_bits_dot l fi s : zbits l ->
  dot (zr <$> l) ((fun j => zr 2 ^ j * fi) <$> seq s (length l)) = zr (bits_val l) * zr 2 ^ s * fi.
Proof.
  revert s. induction l as [|b l IH]; intros s Hl; cbn [fmap list_fmap length seq dot bits_val].
  - change (zr 0) with 0. ring.
  - apply Forall_cons in Hl. destruct Hl as [_ Hl]. rewrite (IH (S s) Hl). rewrite zr_add, zr_mul.
    change (zpow (zr 2) (S s)) with (zr 2 * zpow (zr 2) s). ring.
Qed.
(** v.Bits(63) for values below 2^63 *)
Lemma vec_bits_small v : Forall (fun x => (zv x < 2 ^ 63)%Z) v ->
  exists l, Vec_Bits v rp_m = Ret l /\ zbits l /\ length l = (length v * rp_m)%nat /\
    forall f, length f = length v -> dot (zr <$> l) (dD f) = dot v f.
Proof.
  induction v as [|x v IH]; intros H.
  - exists []. split; [done|]. split; [constructor|]. split; [done|]. intros [|] Hf; [|cbn in Hf; lia]. done.
  - apply Forall_cons in H. destruct H as [Hx Hv]. destruct (IH Hv) as (l & Hl & Hb & HL & Hd).
    destruct (Bits_small x rp_m) as (b & Hbx & Hbb & Hbv & HbL); [exact Hx|].
    exists (b ++ l). cbn [Vec_Bits]. rewrite Hbx, Hl. cbn [rbind]. split; [done|].
    split; [apply Forall_app; done|]. split; [rewrite app_length, HbL, HL; cbn [length]; rewrite Nat.mul_succ_l; lia|].
    intros [|fi f] Hf; [cbn in Hf; lia|]. unfold dD. cbn [fmap list_fmap concat].
    rewrite fmap_app, dot_app by (rewrite fmap_length, dblock_length; done).
    unfold dblock at 1. rewrite <- HbL, zr_bits_dot by done. rewrite Hbv, zr_zv. fold (dD f). rewrite Hd by (cbn in Hf; lia).
    change (zpow (zr 2) 0) with 1. cbn [dot]. ring.
Qed.
Lemma bits_complement l : zbits l -> vmul (zr <$> l) (vsub (ones (length l)) (zr <$> l)) = zeros (length l).
Proof.
  induction l as [|b l IH]; intros H; [done|]. apply Forall_cons in H. destruct H as [Hb Hl].
  unfold ones, zeros in *. cbn [length replicate fmap list_fmap vsub vmul zip_with]. f_equal; [|apply IH; done].
  destruct Hb as [-> | ->]; [change (zr 0) with 0|change (zr 1) with 1]; ring.
Qed.
Lemma ones_expand n : expand (IntToZr 1) n = ones n.
Proof. done. Qed.
Lemma ones_length n : length (ones n) = n. Proof. apply replicate_length. Qed.
Lemma zeros_length n : length (zeros n) = n. Proof. apply replicate_length. Qed.
Lemma zeros_expand n : expand (IntToZr 0) n = zeros n.
Proof. done. Qed.

Section Algebra.
  (** nm = n·m; left and right parts of the vectors *)
  Context (nm n : nat) (bits w sL sR t D E y0v : list Zr) (y1 z u : Zr).
  Context (Lb : length bits = nm) (Lw : length w = n) (LsL : length sL = nm) (LsR : length sR = n) (Lt : length t = nm).
  Context (LD : length D = nm) (LE : length E = n) (Ly : length y0v = nm).
  Context (Hbits : vmul bits (vsub (ones nm) bits) = zeros nm).
  Context (Hu : dot bits D + dot w E = u).
  Definition ra' := vadd (bits ++ w) (vscale y1 (ones nm) ++ zeros n).
  Definition rb' := vadd (vadd (vscale (y1 * y1) (D ++ E)) (vscale y1 (y0v ++ zeros n))) (vmul (vsub (ones nm) bits) y0v ++ zeros n).
  Definition rc0 := dot (ones nm) D * (y1 * y1 * y1) + y1 * y1 * (u + dot (ones nm) y0v) + dot (ones nm) y0v * y1.
  Definition rc1 := dot (vadd bits (vscale y1 (ones nm))) (vmul y0v t) + dot (sL ++ sR) rb'.
  Definition rc2 := dot sL (vmul y0v t).
  Definition ra := vadd ra' (vscale z (sL ++ sR)).
  Definition rb := vadd rb' (vscale z (vmul y0v t ++ zeros n)).

  Ltac len := rewrite ?vadd_length, ?vsub_length, ?vmul_length, ?vscale_length, ?app_length, ?ones_length, ?zeros_length;
    rewrite ?vadd_length, ?vsub_length, ?vmul_length, ?vscale_length, ?app_length, ?ones_length, ?zeros_length; try lia.
  Ltac len1 := repeat first [rewrite vscale_length|rewrite app_length|rewrite ones_length|rewrite zeros_length
    |rewrite vadd_length by len1|rewrite vsub_length by len1|rewrite vmul_length by len1]; lia.
  Lemma vadd_app (a a' b b' : list Zr) : length a = length b -> vadd (a ++ a') (b ++ b') = vadd a b ++ vadd a' b'.
  Proof. intros H. unfold vadd. apply zip_with_app. done. Qed.
  Lemma vscale_app x (a b : list Zr) : vscale x (a ++ b) = vscale x a ++ vscale x b.
  Proof. apply fmap_app. Qed.
  Lemma vadd_zeros (a : list Zr) k : length a = k -> vadd a (zeros k) = a.
  Proof. intros <-. unfold vadd, zeros. induction a as [|x a IH]; [done|]. cbn. f_equal; [ring|exact IH]. Qed.
  Lemma vscale_zeros' x k : vscale x (zeros k) = zeros k.
  Proof. unfold vscale, zeros. induction k as [|k IH]; [done|]. cbn. f_equal; [ring|exact IH]. Qed.

  Lemma ra'_split : ra' = vadd bits (vscale y1 (ones nm)) ++ w.
  Proof. unfold ra'. rewrite vadd_app by len1. rewrite (vadd_zeros w) by done. done. Qed.
  Lemma rb'_split : rb' = vadd (vadd (vscale (y1 * y1) D) (vscale y1 y0v)) (vmul (vsub (ones nm) bits) y0v) ++ vscale (y1 * y1) E.
  Proof.
    unfold rb'. rewrite !vscale_app, vscale_zeros'. rewrite vadd_app by len1. rewrite vadd_app by len1.
    rewrite !(vadd_zeros _ n) by len1. done.
  Qed.
  Lemma ra'_length : length ra' = (nm + n)%nat.
  Proof. unfold ra'. len1. Qed.
  Lemma rb'_length : length rb' = (nm + n)%nat.
  Proof. rewrite rb'_split. len1. Qed.
  Lemma ra_length : length ra = (nm + n)%nat.
  Proof. unfold ra. rewrite vadd_length; rewrite ra'_length; len1. Qed.
  Lemma rb_length : length rb = (nm + n)%nat.
  Proof. unfold rb. rewrite vadd_length; rewrite rb'_length; len1. Qed.

  Lemma rc0_spec : dot ra' rb' = rc0.
  Proof.
    rewrite ra'_split, rb'_split. rewrite dot_app by len1.
    rewrite !dot_vadd_l by len1. rewrite !dot_vadd_r by len1. rewrite !dot_vscale_l, !dot_vscale_r.
    assert (E1 : dot bits (vmul (vsub (ones nm) bits) y0v) = 0) by (rewrite <- dot_vmul, Hbits; apply dot_zeros_l).
    assert (E2 : dot (ones nm) (vmul (vsub (ones nm) bits) y0v) = dot (ones nm) y0v - dot bits y0v).
    { rewrite <- dot_vmul. assert (E3 : vmul (ones nm) (vsub (ones nm) bits) = vsub (ones nm) bits).
      { assert (Hone : forall l, vmul (ones (length l)) l = l).
        { induction l as [|q l IH]; [done|]. unfold ones, vmul in *. cbn. f_equal; [ring|exact IH]. }
        rewrite <- (Hone (vsub (ones nm) bits)) at 2. f_equal. f_equal. len1. }
      rewrite E3. apply dot_vsub_l. len1. }
    rewrite E1, E2. unfold rc0. rewrite <- Hu. ring.
  Qed.
  Lemma rc_spec : dot ra rb = rc0 + rc1 * z + rc2 * (z * z).
  Proof.
    unfold ra, rb. rewrite dot_vadd_l by (rewrite ra'_length; len1). rewrite !dot_vadd_r by (rewrite rb'_length; len1).
    rewrite !dot_vscale_l, !dot_vscale_r, rc0_spec. unfold rc1, rc2.
    rewrite ra'_split. rewrite !dot_app by len1. rewrite !dot_zeros_r. ring.
  Qed.
End Algebra.
