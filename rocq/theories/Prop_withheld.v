(** Properties C66 and C68: package pp (pp/pointproofs.go): what the published parameters give away, and
    the coefficients of aggregated openings. *)
From Verif Require Import Extract Pp_facts Prop_pp Toy.
Local Open Scope Zr_scope.

(** ** C66 *)
(** The exponents e such that g1^(α^e) is published. *)
Definition published (N : nat) : list nat := seq 1 N ++ [0%nat] ++ seq (N + 2) (N - 1).
Theorem C66_published : forall (C : Curve) N α,
  pp_G1s (NewPublicParams (C:=C) N α) = (fun e => gmul (α ^ e) (gen1 C)) <$> published N /\
  (N + 1)%nat ∉ published N /\
  pp_G2s (NewPublicParams (C:=C) N α) = (fun e => gmul (α ^ e) (gen2 C)) <$> seq 1 N.
Proof.
  intros C N α. split; [|split; [|done]].
  - unfold published. cbn [NewPublicParams pp_G1s]. rewrite !fmap_app. f_equal. f_equal.
    + cbn. f_equal. change (α ^ 0) with 1. symmetry. apply gmul_1.
    + replace (2 * N + 1 - (N + 2))%nat with (N - 1)%nat by lia. done.
  - unfold published. rewrite !elem_of_app, elem_of_list_singleton, !elem_of_seq. lia.
Qed.
Lemma peval_app a b x : peval (a ++ b) x = peval a x + x ^ length a * peval b x.
Proof. induction a as [|c a IH]; cbn [app peval length]; [change (x ^ 0) with 1; ring|]. rewrite IH. change (x ^ S (length a)) with (x * x ^ length a). ring. Qed.
Lemma peval_pows a s x : dot a (zpow x <$> seq s (length a)) = x ^ s * peval a x.
Proof.
  revert s. induction a as [|c a IH]; intros s; cbn [length seq fmap list_fmap dot peval]; [ring|].
  rewrite IH. change (x ^ S s) with (x * x ^ s). ring.
Qed.
Lemma msm_gens_common {C : Curve} cs (es : list nat) α :
  msm cs ((fun e => gmul (α ^ e) (gen1 C)) <$> es) = gmul (dot cs (zpow α <$> es)) (gen1 C).
Proof. rewrite <- msm_common_base. f_equal. rewrite <- list_fmap_compose. done. Qed.
(** The polynomial of a combination of the published elements *)
Definition pub_poly (N : nat) (cs : list Zr) (top : Zr) : list Zr :=
  (nth N cs 0 :: take N cs) ++ top :: drop (S N) cs.
Lemma pub_poly_eval N cs top α : (1 <= N)%nat -> length cs = (2 * N)%nat ->
  dot cs (zpow α <$> published N) + top * α ^ (N + 1) = peval (pub_poly N cs top) α.
Proof.
  intros HN Hc. unfold pub_poly, published. rewrite peval_app. cbn [peval length].
  assert (Lt : length (take N cs) = N) by (rewrite take_length; lia).
  assert (Ec : cs = take N cs ++ nth N cs 0 :: drop (S N) cs).
  { rewrite <- (take_drop N cs) at 1. f_equal. destruct (lookup_lt_is_Some_2 cs N) as [c Hc']; [lia|].
    rewrite (drop_S _ _ _ Hc'). f_equal. rewrite nth_lookup, Hc'. done. }
  rewrite Ec at 1. rewrite !fmap_app. rewrite dot_app by (rewrite fmap_length, seq_length; done).
  rewrite <- Lt at 2. rewrite peval_pows. cbn [app fmap list_fmap dot].
  assert (Ld : length (drop (S N) cs) = (N - 1)%nat) by (rewrite drop_length; lia).
  rewrite <- Ld. rewrite peval_pows. rewrite Lt. change (α ^ 1) with (α * 1). change (α ^ 0) with 1.
  replace (N + 1)%nat with (S N) by lia. replace (N + 2)%nat with (S (S N)) by lia.
  change (α ^ S (S N)) with (α * (α * α ^ N)). change (α ^ S N) with (α * α ^ N). ring.
Qed.
Lemma pub_poly_zero N cs top αs : (1 <= N)%nat -> length cs = (2 * N)%nat -> length αs = (2 * N + 1)%nat -> NoDup αs ->
  Forall (fun α => dot cs (zpow α <$> published N) + top * α ^ (N + 1) = 0) αs -> top = 0.
Proof.
  intros HN Hc La Hd Hz.
  assert (H : Forall (fun c => c = 0) (pub_poly N cs top)).
  { apply (poly_roots _ αs); [|done|].
    - unfold pub_poly. rewrite app_length. cbn [length]. rewrite take_length, drop_length. lia.
    - eapply Forall_impl; [exact Hz|]. intros α E. cbn beta in E. rewrite <- pub_poly_eval by done. exact E. }
  unfold pub_poly in H. apply Forall_app in H. destruct H as [_ H]. apply Forall_cons in H. apply H.
Qed.
Lemma gen1_cancel {C : Curve} a b : gmul a (gen1 C) = gmul b (gen1 C) -> a = b.
Proof.
  intros E. apply zsub_eq_0. assert (E' : gmul (a - b) (gen1 C) = gzero).
  { transitivity (gadd (gmul a (gen1 C)) (gopp (gmul b (gen1 C)))); [module|]. rewrite E. apply gadd_opp_r. }
  apply gmul_eq_0 in E'. destruct E' as [E'|E']; [done|destruct (gen1_neq_0 E')].
Qed.
(** No recipe (coefficients chosen without knowing α) combines the published elements into the withheld one
    for more than 2N of the r possible trapdoors. *)
Theorem C66_withheld : forall (C : Curve) N cs αs, (1 <= N)%nat ->
  length cs = (2 * N)%nat -> NoDup αs ->
  Forall (fun α => msm cs (pp_G1s (NewPublicParams (C:=C) N α)) = withheld C N α) αs ->
  (length αs <= 2 * N)%nat.
Proof.
  intros C N cs αs HN Hc Hd Hw. destruct (decide (length αs <= 2 * N)%nat) as [|Hl]; [done|exfalso].
  assert (E : - (1) = 0 :> Zr).
  { apply (pub_poly_zero N cs _ (take (2 * N + 1) αs)); [done|done|rewrite take_length; lia| |].
    - rewrite <- (take_drop (2 * N + 1) αs) in Hd. apply NoDup_app in Hd. apply Hd.
    - apply Forall_take. eapply Forall_impl; [exact Hw|]. intros α E. cbn beta in E.
      rewrite (proj1 (C66_published C N α)), msm_gens_common in E. unfold withheld in E. apply gen1_cancel in E. rewrite E. ring. }
  assert (E' : 1 = 0 :> Zr) by (transitivity (- (- (1))); [ring|rewrite E; ring]).
  exact (z1_neq_0 E').
Qed.
(** A prover that combines the published elements by fixed recipes p, p' into two proofs for different
    values at one position succeeds for at most 2N trapdoors, whatever commitments are used. *)
Theorem C66_algebraic_binding : forall (C : Curve) N i m m' p p' (cm : Zr -> G1 C) αs,
  (1 <= N)%nat -> (i < N)%nat -> m <> m' -> length p = (2 * N)%nat -> length p' = (2 * N)%nat -> NoDup αs ->
  Forall (fun α => let pp := NewPublicParams (C:=C) N α in
    Verify pp m (msm p (pp_G1s pp)) (cm α) i = Ret nil_error /\
    Verify pp m' (msm p' (pp_G1s pp)) (cm α) i = Ret nil_error) αs ->
  (length αs <= 2 * N)%nat.
Proof.
  intros C N i m m' p p' cm αs HN Hi Hm Lp Lp' Hd HF.
  apply (C66_withheld C N (vscale (zinv (m' - m)) (vsub p p'))); [done|rewrite vscale_length, vsub_length; lia|done|].
  eapply Forall_impl; [exact HF|]. intros α [H1 H2]. cbv beta zeta in H1, H2.
  destruct (C08_position_binding C N α m m' _ _ (cm α) i Hi H1 H2) as [_ E]. rewrite (E Hm).
  rewrite msm_vscale. f_equal. apply msm_vsub. lia.
Qed.
Print Assumptions C66_published.
Print Assumptions C66_withheld.
Print Assumptions C66_algebraic_binding.
(** The bound is not vacuous: the recipe "the N-th published element" yields the withheld one for α = 0 and
    α = 1. *)
Example C66_nonvacuous : let cs := [0; 1; 0; 0] in
  Forall (fun α => msm cs (pp_G1s (NewPublicParams (C:=toy) 2 α)) = withheld toy 2 α) [0; 1] /\ NoDup [0; 1].
Proof.
  cbv zeta. split.
  - apply Forall_forall. intros α Hα. rewrite (proj1 (C66_published toy 2 α)), msm_gens_common. unfold withheld. f_equal.
    apply elem_of_list_In in Hα. cbn in Hα. destruct Hα as [<-|[<-|[]]]; vm_compute; reflexivity.
  - apply NoDup_cons. split; [|apply NoDup_singleton]. intros E. apply elem_of_list_singleton in E. symmetry in E. exact (z1_neq_0 E).
Qed.

(** ** C68 *)
(** The production oracle cuts the position down to one byte, so its coefficients repeat with period 256 ... *)
Theorem C68_period : forall (C : Curve) (pp : PP C) cs i, RO pp cs (i + 256)%nat = RO pp cs i.
Proof. intros C pp cs i. rewrite !C10_production_oracle. replace (Z.of_nat (i + 256) mod 256)%Z with (Z.of_nat i mod 256)%Z; [done|].
  rewrite Nat2Z.inj_add. change (Z.of_nat 256) with (1 * 256)%Z. rewrite Z_mod_plus_full. done. Qed.
(** ... and an aggregated opening of more than 256 commitments does not fix its values: moving any δ from
    position i to position i + 256 leaves the verified sum as it is. *)
Theorem C68_compensation : forall (C : Curve) (pp : PP C) cs v i δ t,
  mapM (fun j => RO pp cs j) (seq 0 (length v)) = Ret t -> (i + 256 < length v)%nat ->
  let v' := alter (fun x => x - δ) (i + 256)%nat (alter (fun x => x + δ) i v) in
  dot v' t = dot v t /\ (δ <> 0 -> v' !! i <> v !! i).
Proof.
  intros C pp cs v i δ t Ht Hi v'. set (j := (i + 256)%nat) in *.
  assert (Et : t = (fun k => fe (sha256 C (pp_Digest pp ++ [(Z.of_nat k mod 256)%Z] ++ concat (enc1 C <$> cs)))) <$> seq 0 (length v)).
  { assert (E : mapM (fun j => RO pp cs j) (seq 0 (length v)) = Ret ((fun k => fe (sha256 C (pp_Digest pp ++ [(Z.of_nat k mod 256)%Z] ++ concat (enc1 C <$> cs)))) <$> seq 0 (length v))).
    { apply mapM_ret. intros k _. apply C10_production_oracle. }
    rewrite E in Ht. inversion Ht. done. }
  clear Ht. set (c := fun k : nat => fe (sha256 C (pp_Digest pp ++ [(Z.of_nat k mod 256)%Z] ++ concat (enc1 C <$> cs)))) in *.
  assert (Ec : c j = c i).
  { unfold c, j. rewrite Nat2Z.inj_add. change (Z.of_nat 256) with (1 * 256)%Z. rewrite Z_mod_plus_full. done. }
  assert (Ha : forall l (s : nat) k d, (k < length l)%nat ->
    dot (alter (fun x => x + d) k l) (c <$> seq s (length l)) = dot l (c <$> seq s (length l)) + d * c (s + k)%nat).
  { induction l as [|x l IH]; intros s k d Hk; cbn in Hk; [lia|]. destruct k as [|k].
    - change (alter (fun x => x + d) 0%nat (x :: l)) with ((x + d) :: l). cbn [length seq fmap list_fmap dot]. rewrite Nat.add_0_r. ring.
    - change (alter (fun x => x + d) (S k) (x :: l)) with (x :: alter (fun x => x + d) k l). cbn [length seq fmap list_fmap dot].
      rewrite IH by lia. replace (S s + k)%nat with (s + S k)%nat by lia. ring. }
  split.
  - assert (Ev : v' = alter (fun x => x + - δ) j (alter (fun x => x + δ) i v)).
    { unfold v'. apply list_eq. intros k. destruct (decide (k = j)) as [->|Hk]; [rewrite !list_lookup_alter; destruct (alter _ i v !! j); cbn; [|done]; apply f_equal; ring|].
      rewrite !(list_lookup_alter_ne _ _ j k) by congruence. done. }
    rewrite Ev, Et. assert (El : length v = length (alter (fun x => x + δ) i v)) by (rewrite alter_length; done).
    rewrite El at 1. rewrite Ha by (rewrite alter_length; lia). rewrite <- El. rewrite Ha by lia. cbn [Nat.add]. rewrite Ec. ring.
  - intros Hδ. unfold v'. rewrite list_lookup_alter_ne by lia. rewrite list_lookup_alter.
    destruct (lookup_lt_is_Some_2 v i) as [x Hx]; [lia|]. rewrite Hx. cbn. intros E. apply (inj Some) in E.
    apply Hδ. transitivity (x + δ - x); [ring|]. rewrite E. ring.
Qed.
Print Assumptions C68_period.
Print Assumptions C68_compensation.
Example C68_nonvacuous : exists t, mapM (fun j => RO (NewPublicParams (C:=toy) 2 (zr 7)) [] j) (seq 0 (length (replicate 257 (zr 5)))) = Ret t /\
  (0 + 256 < length (replicate 257 (zr 5)))%nat.
Proof.
  eexists. split; [apply mapM_ret; intros k _; apply C10_production_oracle|]. rewrite replicate_length. lia.
Qed.
