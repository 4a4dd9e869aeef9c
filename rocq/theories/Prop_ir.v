(** Properties C17–C20: package bp, iterated reduction (bp/ir.go). *)
From Verif Require Import Range_facts Extract Toy Prop_ipa.
Local Open Scope Zr_scope.

(** The challenges [IterativeVerify] computes for a statement V and triples Δ: the j-th one is a hash of
    the parameters' digest, A_j, B_j and the previous V. *)
Definition ir_challenges {C : Curve} (pp : bpPP C) (V : G1 C) (Δ : list (G1 C * G1 C * G1 C)) : list Zr :=
  ir_chal (bp_Digest pp) V Δ.

(** ** C17 *)
(** [bitprod l i] (Range_facts) is the product of the entries of l at the set bits of i.  The second
    equation: this is the vector f that ProveRange and VerifyRange build. *)
Theorem C17_final_scalar : forall (C : Curve) (pp : bpPP C) k v V,
  length (bp_G pp) = (2 ^ k)%nat -> length v = (2 ^ k)%nat -> (1 <= k < 16)%nat ->
  exists Δ xs u, IterativeReduce pp v V = Ret (Δ, xs, u) /\ length Δ = k /\ length xs = k /\
    let f := bitprod (reverse xs) <$> seq 0 (2 ^ k) in
    u = dot v f /\ compute_f (2 ^ k) (Vec_Reverse xs) = Ret f.
Proof.
  intros C pp k v V HG Hv Hk. destruct (iterative_reduce_spec k pp v V HG Hv Hk) as (Δ & HΔ & Hrun & _).
  cbn zeta in Hrun. eexists Δ, _, _. split; [exact Hrun|]. split; [done|].
  assert (Hxs : length (ir_chal (bp_Digest pp) V Δ) = k) by (rewrite ir_chal_length; done).
  split; [done|]. cbn zeta. rewrite <- Hxs at 1. rewrite <- vco_bitprod. split; [done|].
  rewrite compute_f_spec by done. rewrite vco_bitprod, Hxs. done.
Qed.
(** The bits are those of the index, least significant first. *)
Theorem C17_bit_decomposition : forall k i, (1 <= k < 16)%nat -> (i < 2 ^ k)%nat ->
  exists l, bitDecomposition (Z.of_nat i) (2 ^ Z.of_nat k - 1) = Ret l /\ length l = k /\
    forall j, (j < k)%nat -> l !! j = Some (Z.b2z (Nat.testbit i j)).
Proof.
  intros k i Hk Hi. exists (lbits k i). split; [|split].
  - pose proof (bitDecomposition_pow2 k i Hk Hi) as H. rewrite uint16_pow2 in H by lia.
    assert (2 ^ 1 <= 2 ^ Z.of_nat k)%Z by (apply Z.pow_le_mono_r; lia).
    assert (2 ^ Z.of_nat k < 2 ^ 16)%Z by (apply Z.pow_lt_mono_r; lia).
    rewrite Z.mod_small in H by lia. exact H.
  - unfold lbits. rewrite fmap_length, seq_length. done.
  - intros j Hj. unfold lbits. rewrite list_lookup_fmap, lookup_seq_lt by done. done.
Qed.
Print Assumptions C17_final_scalar.
Print Assumptions C17_bit_decomposition.
Definition toy_pp4 : bpPP toy := @MkBpPP toy [] (RandGenVec 4 "g") [] (zr 1).
Example C17_nonvacuous : exists Δ x1 x2 u,
  IterativeReduce toy_pp4 [zr 1; zr 2; zr 3; zr 4] (zr 9) = Ret (Δ, [x1; x2], u) /\
  u = zr 1 + zr 2 * x2 + zr 3 * x1 + zr 4 * (x2 * x1).
Proof.
  destruct (C17_final_scalar toy toy_pp4 2 [zr 1; zr 2; zr 3; zr 4] (zr 9)) as (Δ & xs & u & H & _ & Hl & Hu & _);
    [apply rand_gen_vec_length|done|lia|].
  destruct xs as [|x1 [|x2 [|]]]; try (cbn in Hl; lia). exists Δ, x1, x2, u. split; [exact H|]. rewrite Hu.
  change (reverse [x1; x2]) with [x2; x1]. unfold bitprod. cbn. ring.
Qed.

(** ** C18 *)
Theorem C18_ir_complete : forall (C : Curve) (pp : bpPP C) k v,
  length (bp_G pp) = (2 ^ k)%nat -> length v = (2 ^ k)%nat -> (1 <= k < 16)%nat ->
  let V := msm v (bp_G pp) in
  exists Δ xs u, IterativeReduce pp v V = Ret (Δ, xs, u) /\
    (Forall (fun x => x <> 0) (ir_challenges pp V Δ) -> IterativeVerify pp V Δ u = Ret (inl (xs, u))).
Proof.
  intros C pp k v HG Hv Hk V. destruct (iterative_reduce_spec k pp v V HG Hv Hk) as (Δ & HΔ & Hrun & Heq).
  cbn zeta in *. eexists Δ, _, _. split; [exact Hrun|]. intros Hnz.
  destruct (Heq Hnz eq_refl) as [H1 H2].
  destruct (iterative_verify_spec k pp V Δ (dot v (vco (ir_chal (bp_Digest pp) V Δ))) HG Hk) as (res & Hres & [(_ & _ & ->)|[Hn _]]); [lia|..].
  - rewrite Hres. rewrite take_ge by lia. done.
  - exfalso. apply Hn. rewrite take_ge by lia. done.
Qed.
Print Assumptions C18_ir_complete.
Lemma toy_ir_challenges pp V Δ : Forall (fun x => x <> 0) (ir_challenges (C:=toy) pp V Δ).
Proof.
  unfold ir_challenges. revert V. induction Δ as [|[[A B] V'] Δ IH]; intros V; cbn [ir_chal]; constructor; [apply toy_challenge_neq_0|apply IH].
Qed.
Example C18_nonvacuous : exists Δ xs u, let pp := toy_pp4 in
  IterativeReduce pp [zr 1; zr 2; zr 3; zr 4] (msm [zr 1; zr 2; zr 3; zr 4] (bp_G pp)) = Ret (Δ, xs, u) /\
  IterativeVerify pp (msm [zr 1; zr 2; zr 3; zr 4] (bp_G pp)) Δ u = Ret (inl (xs, u)).
Proof.
  destruct (C18_ir_complete toy toy_pp4 2 [zr 1; zr 2; zr 3; zr 4]) as (Δ & xs & u & H & Hv);
    [apply rand_gen_vec_length|done|lia|].
  exists Δ, xs, u. split; [exact H|]. apply Hv. apply toy_ir_challenges.
Qed.

(** ** C19 *)
(** [ir_rounds xs V Δ]: V_j = V_{j-1} + x_j·A_j + x_j^-1·B_j for all rounds; [ir_last]: the last V of Δ.
    [folded_generator]: what remains of G after replacing it by left half + x^-1·right half in turn. *)
Fixpoint folded_generators {M : Grp} (xs : list Zr) (G : list M) : list M :=
  match xs with [] => G | x :: xs => folded_generators xs (fold2 1 (zinv x) (2 ^ length xs) G) end.
Lemma folded_generators_msm {M : Grp} xs : forall G : list M, length G = (2 ^ length xs)%nat ->
  folded_generators xs G = [msm (wco xs) G].
Proof.
  induction xs as [|x xs IH]; intros G HG.
  - destruct G as [|G0 [|]]; try (cbn in HG; lia). cbn. f_equal. rewrite gadd_0_r, gmul_1. done.
  - cbn [folded_generators]. rewrite IH by (rewrite (fold2_length _ _ (2 ^ length xs)); [done|rewrite HG; cbn; lia]).
    f_equal. rewrite msm_fold2' by (try apply wco_length; rewrite HG; cbn; lia). done.
Qed.

Theorem C19_acceptance : forall (C : Curve) (pp : bpPP C) k V Δ u,
  length (bp_G pp) = (2 ^ k)%nat -> (1 <= k < 16)%nat -> (k <= length Δ)%nat ->
  let xs := ir_challenges pp V (take k Δ) in
  exists res, IterativeVerify pp V Δ u = Ret res /\
    (forall p, res = inl p -> p = (xs, u)) /\
    ((exists p, res = inl p) <->
     ir_rounds xs V Δ /\ exists G0, folded_generators xs (bp_G pp) = [G0] /\ ir_last V (take k Δ) = gmul u G0).
Proof.
  intros C pp k V Δ u HG Hk HΔ xs.
  assert (Hxs : length xs = k) by (unfold xs, ir_challenges; rewrite ir_chal_length, take_length; lia).
  destruct (iterative_verify_spec k pp V Δ u HG Hk HΔ) as (res & Hres & Hc). cbn zeta in Hc. fold (ir_challenges pp V (take k Δ)) in Hc. fold xs in Hc.
  exists res. split; [done|]. rewrite folded_generators_msm by (rewrite Hxs; done).
  destruct Hc as [(H1 & H2 & ->)|(Hn & msg & ->)].
  - split; [intros p E; inversion E; done|]. split; [|intros; by eexists]. intros _. split; [done|]. by eexists.
  - split; [done|]. split; [intros [p E]; done|]. intros (H1 & G0 & E & H2). exfalso. apply Hn. split; [done|].
    apply cons_inv in E. destruct E as [-> _]. done.
Qed.
(** Too few triples: never accepted; a panic unless one of the given rounds is already wrong. *)
Theorem C19_too_few : forall (C : Curve) (pp : bpPP C) k V Δ u,
  length (bp_G pp) = (2 ^ k)%nat -> (1 <= k < 16)%nat -> (length Δ < k)%nat ->
  let xs := ir_challenges pp V Δ in
  (ir_rounds xs V Δ -> IterativeVerify pp V Δ u = Panic) /\
  (~ ir_rounds xs V Δ -> exists msg, IterativeVerify pp V Δ u = Ret (inr msg)).
Proof.
  intros C pp k V Δ u HG Hk HΔ. unfold IterativeVerify. rewrite (ir_pow2_len _ k) by done. cbn [rbind]. rewrite HG.
  destruct k as [|k]; [lia|]. rewrite half_half_pow. unfold ir_challenges.
  assert (H : forall k Δ G V xs0 fV, length G = (2 ^ S k)%nat -> (length Δ < S k)%nat ->
    (ir_rounds (ir_chal (bp_Digest pp) V Δ) V Δ -> iv_loop pp Δ (2 ^ k) G V xs0 fV u = Panic) /\
    (~ ir_rounds (ir_chal (bp_Digest pp) V Δ) V Δ -> exists msg, iv_loop pp Δ (2 ^ k) G V xs0 fV u = Ret (inr msg))); [|by apply H].
  clear. intros k. induction k as [|k IH]; intros [|[[A B] V'] Δ] G V xs0 fV HG HΔ; try (cbn in HΔ; lia).
  - split; [done|]. intros H; exfalso; apply H; done.
  - split; [intros _|intros H; exfalso; apply H; done]. destruct (pow2_S_pred (S k)) as [m Hm]. cbn [iv_loop]. rewrite Hm. done.
  - rewrite iv_loop_round by done. cbv zeta. rewrite half_half_pow. cbn [ir_chal ir_rounds].
    set (x := ir_x _ A B V).
    assert (E : gadd (gadd (gmul x A) (gmul (zinv x) B)) V = gadd (gadd V (gmul x A)) (gmul (zinv x) B))
      by (generalize (zinv x); intros y; module).
    destruct (geqb V' _) eqn:Eq.
    + apply geqb_eq in Eq. rewrite E in Eq.
      destruct (IH Δ (foldG x (2 ^ S k) G) V' (xs0 ++ [x]) (Some V')) as [H1 H2];
        [apply foldG_length; rewrite HG; cbn; lia|cbn in HΔ; lia|].
      split; [intros [_ H]; by apply H1|]. intros H. apply H2. intros H'. apply H. done.
    + apply geqb_neq in Eq. rewrite E in Eq. split; [intros [H _]; done|]. intros _. by eexists.
Qed.
(** Extra triples are ignored. *)
Theorem C19_extra_ignored : forall (C : Curve) (pp : bpPP C) k V Δ extra u,
  length (bp_G pp) = (2 ^ k)%nat -> (1 <= k < 16)%nat -> length Δ = k ->
  IterativeVerify pp V (Δ ++ extra) u = IterativeVerify pp V Δ u.
Proof.
  intros C pp k V Δ extra u HG Hk HΔ. unfold IterativeVerify. rewrite (ir_pow2_len _ k) by done. cbn [rbind]. rewrite HG.
  destruct k as [|k]; [lia|]. rewrite half_half_pow. clear Hk. revert HG HΔ.
  generalize (bp_G pp) (@nil Zr) (@None (G1 C)). intros G xs0 fV. revert Δ G V xs0 fV.
  induction k as [|k IH]; intros [|[[A B] V'] Δ] G V xs0 fV HG HΔ; try (cbn in HΔ; lia).
  - change (((A, B, V') :: Δ) ++ extra) with ((A, B, V') :: (Δ ++ extra)). rewrite !iv_loop_round by done. cbv zeta.
    destruct (geqb V' _); [|done]. destruct Δ; [|cbn in HΔ; lia]. destruct extra; done.
  - change (((A, B, V') :: Δ) ++ extra) with ((A, B, V') :: (Δ ++ extra)). rewrite !iv_loop_round by done. cbv zeta.
    destruct (geqb V' _); [|done]. rewrite half_half_pow. apply IH; [apply foldG_length; rewrite HG; cbn; lia|cbn in HΔ; lia].
Qed.
(** Other numbers of generators below 65536; the check looks at the number modulo 65536. *)
Theorem C19_bad_sizes : forall (C : Curve) (pp : bpPP C) V Δ u,
  let n := length (bp_G pp) in
  ((Z.of_nat n < 65536)%Z -> n <> 0%nat -> (forall k, (1 <= k)%nat -> n <> (2 ^ k)%nat) -> IterativeVerify pp V Δ u = Panic) /\
  ((Z.of_nat n mod 65536)%Z = 0%Z -> IterativeVerify pp V Δ u = Hang).
Proof.
  intros C pp V Δ u n. unfold IterativeVerify. fold n. unfold uint16. change (2 ^ 16)%Z with 65536%Z. split.
  - intros Hn H0 Hk. rewrite Z.mod_small by lia. destruct (IsPowerOfTwo_spec (Z.of_nat n)) as (b & -> & Hb); [lia|]. cbn [rbind].
    destruct b; [|done]. destruct (proj1 Hb eq_refl) as (k & Hk1 & Hk2). exfalso. apply (Hk (Z.to_nat k)); [lia|].
    apply Nat2Z.inj. rewrite Nat2Z.inj_pow, Z2Nat.id by lia. done.
  - intros ->. unfold IsPowerOfTwo, IsPowerOfTwo_fuel. cbn [Z.eqb]. rewrite is_pow2_loop_0. done.
Qed.
Print Assumptions C19_acceptance.
Print Assumptions C19_too_few.
Print Assumptions C19_extra_ignored.
Print Assumptions C19_bad_sizes.
(** both outcomes occur *)
Example C19_nonvacuous : let pp := @MkBpPP toy [] [zr 1; zr 2] [] (zr 1) in
  (exists p, IterativeVerify pp (zr 0) [(zr 0, zr 0, zr 0)] 0 = Ret (inl p)) /\
  (exists e, IterativeVerify pp (zr 0) [(zr 0, zr 0, zr 1)] 0 = Ret (inr e)) /\
  IterativeVerify pp (zr 0) [] 0 = Panic.
Proof.
  intros pp.
  assert (Hz : forall x : Zr, gmul (g := G1 toy) x (zr 0) = zr 0) by (intros x; change (x * zr 0 = zr 0); apply zmul_0_r).
  split; [|split].
  - destruct (C19_acceptance toy pp 1 (zr 0) [(zr 0, zr 0, zr 0)] 0) as (res & H & _ & Hiff); [done|lia|cbn; lia|].
    destruct (proj2 Hiff) as [p ->]; [|by exists p].
    unfold ir_challenges. cbn [take ir_chal]. set (x := ir_x _ _ _ _). cbn [ir_rounds]. split; [split; [|done]|].
    + rewrite !Hz. symmetry. etransitivity; [apply (gadd_0_r (M:=G1 toy))|apply (gadd_0_r (M:=G1 toy))].
    + cbn [folded_generators]. eexists. split; [reflexivity|]. symmetry. apply (gmul_0 (M := G1 toy)).
  - destruct (C19_acceptance toy pp 1 (zr 0) [(zr 0, zr 0, zr 1)] 0) as (res & H & _ & Hiff); [done|lia|cbn; lia|].
    destruct res as [p|e]; [|by exists e]. exfalso. destruct (proj1 Hiff) as [[Hr _] _]; [by exists p|].
    rewrite !Hz in Hr. assert (E : zr 1 = zr 0); [rewrite Hr; etransitivity; [apply (gadd_0_r (M:=G1 toy))|apply (gadd_0_r (M:=G1 toy))]|].
    exact (z1_neq_0 E).
  - apply (C19_too_few toy pp 1 (zr 0) [] 0); [done|lia|cbn; lia|done].
Qed.

(** ** C20 *)
Section C20.
  Context {M : Grp}.
  Implicit Types (G : list M).
  Lemma comb3_msm co X Y Z G a1 a2 a3 : length a1 = length a2 -> length a2 = length a3 ->
    comb3 co X Y Z (msm a1 G) (msm a2 G) (msm a3 G) = msm (comb3v co X Y Z a1 a2 a3) G.
  Proof. intros. unfold comb3, comb3v. rewrite !msm_vadd, !msm_vscale by (rewrite ?vadd_length; rewrite ?vscale_length; lia). done. Qed.
End C20.
(** One round, three distinct challenges: explicit openings of V, A and B (any Zr-module). *)
Theorem C20_round_extraction : forall (M : Grp) (G : list M) n (A B V : M) (x1 x2 x3 : Zr) s1 s2 s3,
  length G = (n + n)%nat -> Forall (fun s => length s = n) [s1; s2; s3] ->
  x1 <> 0 -> x2 <> 0 -> x3 <> 0 -> NoDup [x1; x2; x3] ->
  let folded x := gadd (gadd V (gmul x A)) (gmul (zinv x) B) in
  let opened x s := msm s (fold2 1 (zinv x) n G) in
  folded x1 = opened x1 s1 -> folded x2 = opened x2 s2 -> folded x3 = opened x3 s3 ->
  let unfold_s x s := vscale 1 s ++ vscale (zinv x) s in
  let combined co := msm (comb3v co x1 x2 x3 (unfold_s x1 s1) (unfold_s x2 s2) (unfold_s x3 s3)) G in
  V = combined coP /\ A = combined coL /\ B = combined coR.
Proof.
  intros M G n A B V x1 x2 x3 s1 s2 s3 HG Hl H1 H2 H3 Hd folded opened E1 E2 E3 us combined.
  rewrite !Forall_cons in Hl. destruct Hl as (L1 & L2 & L3 & _).
  rewrite !NoDup_cons, !elem_of_cons in Hd. destruct Hd as (D1 & D2 & _).
  destruct (quad_extract x1 x2 x3 A V B) as (EL & EP & ER);
    [done..|intros E; apply D1; tauto|intros E; apply D1; tauto|intros E; apply D2; tauto|].
  cbv zeta in EL, EP, ER.
  assert (Hf : forall x, gadd (gadd (gmul x A) V) (gmul (zinv x) B) = folded x) by (intros x; unfold folded; generalize (zinv x); intros y; module).
  rewrite !Hf, E1, E2, E3 in EL, EP, ER. unfold opened in EL, EP, ER. rewrite !msm_fold2' in EL, EP, ER by done.
  rewrite comb3_msm in EL, EP, ER by (rewrite !app_length, !vscale_length; lia).
  unfold combined, us. rewrite EL, EP, ER. done.
Qed.

(** All rounds: trees of transcripts with four challenges per node. *)
Definition indep1 {M : Grp} (G : list M) : Prop :=
  forall a, length a = length G -> msm a G = gzero -> a = zeros (length G).
Inductive itree (M : Grp) : Type :=
  | ILeaf (u : Zr)
  | INode (A B : M) (x1 : Zr) (t1 : itree M) (x2 : Zr) (t2 : itree M) (x3 : Zr) (t3 : itree M) (x4 : Zr) (t4 : itree M).
Arguments ILeaf {M}. Arguments INode {M}.
Fixpoint itree_accepts {M : Grp} (k : nat) (G : list M) (V : M) (t : itree M) : Prop :=
  match k, t with
  | O, ILeaf u => V = msm [u] G
  | S k, INode A B x1 t1 x2 t2 x3 t3 x4 t4 =>
    let sub x t := x <> 0 /\
      itree_accepts k (fold2 1 (zinv x) (2 ^ k) G) (gadd (gadd V (gmul x A)) (gmul (zinv x) B)) t in
    NoDup [x1; x2; x3; x4] /\ sub x1 t1 /\ sub x2 t2 /\ sub x3 t3 /\ sub x4 t4
  | _, _ => False
  end.
(** the challenges and the final scalar of a root-to-leaf path *)
Fixpoint itree_path {M : Grp} (t : itree M) (xs : list Zr) (u : Zr) : Prop :=
  match t, xs with
  | ILeaf u', [] => u = u'
  | INode _ _ x1 t1 x2 t2 x3 t3 x4 t4, x :: xs =>
    (x = x1 /\ itree_path t1 xs u) \/ (x = x2 /\ itree_path t2 xs u) \/
    (x = x3 /\ itree_path t3 xs u) \/ (x = x4 /\ itree_path t4 xs u)
  | _, _ => False
  end.

Section C20.
  Context {M : Grp}.
  Implicit Types (G : list M).
  Lemma itree_path_length k : forall G V (t : itree M) xs u, itree_accepts k G V t -> itree_path t xs u -> length xs = k.
  Proof.
    induction k as [|k IH]; intros G V t xs u Ha Hp; destruct t; try done; destruct xs as [|x xs]; try done.
    cbn [itree_accepts itree_path] in *. destruct Ha as (_ & (_ & H1) & (_ & H2) & (_ & H3) & (_ & H4)). cbn. f_equal.
    destruct Hp as [[_ H]|[[_ H]|[[_ H]|[_ H]]]]; eauto.
  Qed.
  Lemma msm_inj G a b : indep1 G -> length a = length G -> length b = length G -> msm a G = msm b G -> a = b.
  Proof.
    intros Hi Ha Hb E. apply (vsub_zeros a b (length G)); [done|done|]. apply Hi; [rewrite vsub_length; lia|].
    rewrite msm_vsub by lia. rewrite E. apply gadd_opp_r.
  Qed.
  Lemma indep1_fold G y n : length G = (n + n)%nat -> indep1 G -> indep1 (fold2 1 y n G).
  Proof.
    intros HG Hi a Ha E. rewrite fold2_length in Ha |- * by done. rewrite msm_fold2' in E by done.
    apply Hi in E; [|rewrite app_length, !vscale_length; lia]. rewrite HG in E. unfold zeros in E. rewrite replicate_add in E.
    apply app_inj_1 in E; [|rewrite vscale_length, replicate_length; done]. destruct E as [E _].
    rewrite vscale_1 in E. exact E.
  Qed.
  Lemma icoord (x : nat -> Zr) (p1 p2 p3 q1 q2 q3 : Zr) (s : nat -> Zr) :
    (forall i, (i < 4)%nat -> x i <> 0) -> NoDup [x 0%nat; x 1%nat; x 2%nat; x 3%nat] ->
    (forall i, (i < 4)%nat -> x i * p1 + p2 + zinv (x i) * p3 = s i) ->
    (forall i, (i < 4)%nat -> x i * q1 + q2 + zinv (x i) * q3 = zinv (x i) * s i) ->
    forall i, (i < 4)%nat -> s i = p2 + x i * q2.
  Proof.
    intros Hx Hd Hp Hq.
    assert (H : Forall (fun c => c = 0) [- p3; q3 - p2; q2 - p1; q1]).
    { eapply (poly_roots _ [x 0%nat; x 1%nat; x 2%nat; x 3%nat]); [done|exact Hd|].
      assert (Hev : forall i, (i < 4)%nat -> peval [- p3; q3 - p2; q2 - p1; q1] (x i) = 0).
      { intros i Hi. specialize (Hx i Hi). specialize (Hp i Hi). specialize (Hq i Hi). rewrite <- Hp in Hq. cbn [peval].
        transitivity (x i * x i * ((x i * q1 + q2 + zinv (x i) * q3) - zinv (x i) * (x i * p1 + p2 + zinv (x i) * p3))); [field; done|].
        rewrite Hq. ring. }
      repeat constructor; apply Hev; lia. }
    rewrite !Forall_cons in H. destruct H as (H3 & H2 & H1 & H0 & _).
    assert (E3 : p3 = 0) by (transitivity (- - p3); [ring|rewrite H3; ring]).
    apply zsub_eq_0 in H1. intros i Hi. rewrite <- (Hp i Hi), E3, H1. ring.
  Qed.
  Lemma vlin_length (x y : Zr) a b c n : length a = n -> length b = n -> length c = n ->
    length (vadd (vadd (vscale x a) b) (vscale y c)) = n.
  Proof. intros. rewrite !vadd_length; rewrite ?vadd_length; rewrite ?vscale_length; lia. Qed.

  (** one round, four challenges *)
  Lemma ir_round_knowledge G n (A B V : M) (x : nat -> Zr) (s : nat -> list Zr) :
    length G = (n + n)%nat -> indep1 G -> (forall i, (i < 4)%nat -> x i <> 0) ->
    NoDup [x 0%nat; x 1%nat; x 2%nat; x 3%nat] -> (forall i, (i < 4)%nat -> length (s i) = n) ->
    (forall i, (i < 4)%nat -> gadd (gadd V (gmul (x i) A)) (gmul (zinv (x i)) B) = msm (s i) (fold2 1 (zinv (x i)) n G)) ->
    exists v, length v = (n + n)%nat /\ V = msm v G /\ forall i, (i < 4)%nat -> s i = foldv (x i) n v.
  Proof.
    intros HG Hi Hx Hd Hs Hf.
    destruct (C20_round_extraction M G n A B V (x 0%nat) (x 1%nat) (x 2%nat) (s 0%nat) (s 1%nat) (s 2%nat)) as (EP & EL & ER);
      [done|rewrite !Forall_cons; split_and!; try apply Hs; try lia; done|apply Hx; lia|apply Hx; lia|apply Hx; lia| |apply Hf; lia|apply Hf; lia|apply Hf; lia|].
    { change [x 0%nat; x 1%nat; x 2%nat; x 3%nat] with ([x 0%nat; x 1%nat; x 2%nat] ++ [x 3%nat]) in Hd. apply NoDup_app in Hd. tauto. }
    set (S i := vscale 1 (s i) ++ vscale (zinv (x i)) (s i)).
    fold (S 0%nat) (S 1%nat) (S 2%nat) in EP, EL, ER.
    assert (HS : forall i, (i < 4)%nat -> length (S i) = (n + n)%nat) by (intros i Hi4; unfold S; rewrite app_length, !vscale_length, Hs by done; done).
    set (aL := comb3v coL _ _ _ _ _ _) in EL. set (aP := comb3v coP _ _ _ _ _ _) in EP. set (aR := comb3v coR _ _ _ _ _ _) in ER.
    assert (LL : length aL = (n + n)%nat) by (unfold aL; rewrite comb3v_length; rewrite !HS by lia; done).
    assert (LP : length aP = (n + n)%nat) by (unfold aP; rewrite comb3v_length; rewrite !HS by lia; done).
    assert (LR : length aR = (n + n)%nat) by (unfold aR; rewrite comb3v_length; rewrite !HS by lia; done).
    clearbody aL aP aR. exists aP. split; [done|]. split; [done|].
    assert (Heq : forall i, (i < 4)%nat -> vadd (vadd (vscale (x i) aL) aP) (vscale (zinv (x i)) aR) = S i).
    { intros i Hi4. apply (msm_inj G); [done|rewrite (vlin_length _ _ _ _ _ (n + n)); done|rewrite HS; done|].
      rewrite !msm_vadd, !msm_vscale by (rewrite ?vadd_length; rewrite ?vscale_length; lia).
      rewrite <- EL, <- EP, <- ER. unfold S. rewrite <- (msm_fold2' _ _ n) by auto. rewrite <- Hf by done.
      generalize (zinv (x i)). intros y. module. }
    intros i Hi4. apply list_nth_ext; [rewrite foldv_length, Hs; done|]. intros j Hj. rewrite Hs in Hj by done.
    unfold foldv. rewrite nth_vadd, nth_vscale, nth_take_z, nth_drop_z by (rewrite ?vscale_length, ?take_length, ?drop_length; lia).
    apply (icoord x (nth j aL 0) (nth j aP 0) (nth j aR 0) (nth (n + j) aL 0) (nth (n + j) aP 0) (nth (n + j) aR 0) (fun i => nth j (s i) 0)); try done.
    - intros l Hl. specialize (Heq l Hl). apply (f_equal (fun l => nth j l 0)) in Heq.
      rewrite !nth_vadd, !nth_vscale in Heq by (rewrite ?vadd_length; rewrite ?vscale_length; lia).
      rewrite Heq. unfold S. rewrite app_nth1 by (rewrite vscale_length, Hs; done). rewrite nth_vscale. ring.
    - intros l Hl. specialize (Heq l Hl). apply (f_equal (fun l => nth (n + j) l 0)) in Heq.
      rewrite !nth_vadd, !nth_vscale in Heq by (rewrite ?vadd_length; rewrite ?vscale_length; lia).
      rewrite Heq. unfold S. rewrite app_nth2 by (rewrite vscale_length, Hs by done; lia).
      rewrite vscale_length, Hs by done. replace (n + j - n)%nat with j by lia. apply nth_vscale.
  Qed.
End C20.

(** From an accepted tree one vector v is extracted that opens V and that explains the final scalar of
    every path: it is ⟨v, f⟩ for the vector f of C17. *)
Theorem C20_special_soundness : forall (M : Grp) k (G : list M) V t,
  length G = (2 ^ k)%nat -> indep1 G -> itree_accepts k G V t ->
  exists v, length v = (2 ^ k)%nat /\ V = msm v G /\
    forall xs u, itree_path t xs u -> u = dot v (bitprod (reverse xs) <$> seq 0 (2 ^ k)).
Proof.
  intros M k G V t HG Hi Ht.
  assert (H : exists v, length v = (2 ^ k)%nat /\ V = msm v G /\ forall xs u, itree_path t xs u -> u = dot v (vco xs)).
  { revert G V t HG Hi Ht. induction k as [|k IH]; intros G V t HG Hi Ht.
    - destruct t as [u|]; [|done]. exists [u]. split; [done|]. split; [done|]. intros [|] u' Hp; [|done]. cbn in Hp. subst. cbn. ring.
    - destruct t as [|A B x1 t1 x2 t2 x3 t3 x4 t4]; [done|]. cbn [itree_accepts] in Ht.
      set (n := (2 ^ k)%nat) in *. assert (H2 : (2 ^ S k = n + n)%nat) by (unfold n; cbn; lia). rewrite H2 in *.
      destruct Ht as (Hd & (Hx1 & T1) & (Hx2 & T2) & (Hx3 & T3) & (Hx4 & T4)).
      pose proof (fun xs u => itree_path_length k _ _ t1 xs u T1) as P1. pose proof (fun xs u => itree_path_length k _ _ t2 xs u T2) as P2.
      pose proof (fun xs u => itree_path_length k _ _ t3 xs u T3) as P3. pose proof (fun xs u => itree_path_length k _ _ t4 xs u T4) as P4.
      apply IH in T1; [|apply fold2_length; done|apply indep1_fold; done].
      apply IH in T2; [|apply fold2_length; done|apply indep1_fold; done].
      apply IH in T3; [|apply fold2_length; done|apply indep1_fold; done].
      apply IH in T4; [|apply fold2_length; done|apply indep1_fold; done].
      destruct T1 as (s1 & L1 & E1 & U1). destruct T2 as (s2 & L2 & E2 & U2).
      destruct T3 as (s3 & L3 & E3 & U3). destruct T4 as (s4 & L4 & E4 & U4).
      destruct (ir_round_knowledge G n A B V (fun i => nth i [x1; x2; x3; x4] 0) (fun i => nth i [s1; s2; s3; s4] [])) as (v & Lv & EV & Hv);
        try done; try (intros i Hi4; destruct i as [|[|[|[|i]]]]; cbn [nth]; try done; lia).
      exists v. split; [done|]. split; [done|].
      assert (Hgo : forall x s (t : itree M) xs u, (forall xs u, itree_path t xs u -> length xs = k) ->
        (forall xs u, itree_path t xs u -> u = dot s (vco xs)) -> s = foldv x n v -> itree_path t xs u -> u = dot v (vco (x :: xs))).
      { intros x s t xs u HL HU -> Hp. rewrite (HU xs u Hp). pose proof (HL xs u Hp) as HLx. unfold n. rewrite <- HLx. apply dot_foldv.
        rewrite Lv. cbn. rewrite HLx. fold n. lia. }
      intros [|x xs] u Hp; [done|]. cbn [itree_path] in Hp.
      destruct Hp as [[-> Hp]|[[-> Hp]|[[-> Hp]|[-> Hp]]]].
      + eapply (Hgo x1 s1 t1); [exact P1|exact U1|apply (Hv 0%nat); lia|exact Hp].
      + eapply (Hgo x2 s2 t2); [exact P2|exact U2|apply (Hv 1%nat); lia|exact Hp].
      + eapply (Hgo x3 s3 t3); [exact P3|exact U3|apply (Hv 2%nat); lia|exact Hp].
      + eapply (Hgo x4 s4 t4); [exact P4|exact U4|apply (Hv 3%nat); lia|exact Hp]. }
  destruct H as (v & Lv & EV & Hu). exists v. split; [done|]. split; [done|]. intros xs u Hp. rewrite (Hu xs u Hp).
  rewrite vco_bitprod. rewrite (itree_path_length k G V t xs u Ht Hp). done.
Qed.
Print Assumptions C20_round_extraction.
Print Assumptions C20_special_soundness.
Definition free2 : Grp := prodG toyG toyG.
Lemma free2_indep : indep1 (M:=free2) [(1, 0); (0, 1)].
Proof.
  intros [|a1 [|a2 [|]]] Ha E; try (cbn in Ha; lia). cbn in E.
  assert (E0 : (a1, a2) = (0, 0)).
  { transitivity (a1 * 1 + (a2 * 0 + 0), a1 * 0 + (a2 * 1 + 0)); [f_equal; ring|]. exact E. }
  inversion E0. done.
Qed.
Lemma ir_honest_round {M : Grp} (g1 g2 : M) a1 a2 x : x <> 0 ->
  gadd (gadd (msm [a1; a2] [g1; g2]) (gmul x (gmul a2 g1))) (gmul (zinv x) (gmul a1 g2)) =
  msm [a1 + x * a2] (fold2 1 (zinv x) 1 [g1; g2]).
Proof.
  intros Hx. unfold fold2. cbn [take drop gvscale gvadd fmap list_fmap zip_with msm]. module_pre; field; done.
Qed.
Example C20_nonvacuous : exists (M : Grp) (G : list M) V t, length G = (2 ^ 1)%nat /\ indep1 G /\ itree_accepts 1 G V t /\
  itree_path t [zr 3] (zr 23).
Proof.
  pose (g1 := (1, 0) : free2). pose (g2 := (0, 1) : free2).
  pose (leaf := fun x => @ILeaf free2 (zr 5 + x * zr 6)).
  exists free2, [g1; g2], (msm [zr 5; zr 6] [g1; g2]).
  exists (INode (gmul (zr 6) g1) (gmul (zr 5) g2) (zr 1) (leaf (zr 1)) (zr 2) (leaf (zr 2)) (zr 3) (leaf (zr 3)) (zr 4) (leaf (zr 4))).
  split; [done|]. split; [apply free2_indep|].
  assert (Hneq : forall a b, (0 <= a < 100)%Z -> (0 <= b < 100)%Z -> a <> b -> zr a <> zr b).
  { intros a b Ha Hb Hab E. apply zr_inj_small in E; assert (100 < r)%Z by reflexivity; lia. }
  assert (Hnz : forall a, (0 < a < 100)%Z -> zr a <> 0) by (intros; apply Hneq; lia).
  split; [cbn [itree_accepts leaf]; split|].
  - rewrite !NoDup_cons, !elem_of_cons.
    repeat split; try apply NoDup_nil_2; intros E; repeat match type of E with _ \/ _ => destruct E as [E|E] end; try (by apply elem_of_nil in E); match type of E with zr ?a = zr ?b => refine (Hneq a b _ _ _ E); lia end.
  - split_and!; try (apply Hnz; lia); apply (ir_honest_round g1 g2); apply Hnz; lia.
  - cbn [itree_path leaf]. right. right. left. split; [done|]. rewrite <- zr_mul, <- zr_add. done.
Qed.
