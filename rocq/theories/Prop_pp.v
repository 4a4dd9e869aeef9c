(** Properties C07–C11: package pp (PointProofs). *)
From Verif Require Import Pp_facts Toy.
Local Open Scope Zr_scope.

(** The group element g1^(α^(N+1)) that the public parameters leave out. *)
Definition withheld (C : Curve) (N : nat) (α : Zr) : G1 C := gmul (α ^ (N + 1)) (gen1 C).

(** ** C07 *)
Theorem C07_honest_openings_verify : forall (C : Curve) N α m i,
  (2 <= N)%nat -> length m = N -> (i < N)%nat ->
  let pp := NewPublicParams (C:=C) N α in
  exists cm mi π, Commit pp m = Ret cm /\ Open pp i m = Ret (mi, π) /\ m !! i = Some mi /\
    Verify pp mi π cm i = Ret nil_error.
Proof.
  intros C N α m i HN Hm Hi pp. exists (commitment N α m), (nth i m 0), (gmul (open_exp N α i m) (gen1 C)).
  split; [apply commit_spec; [done|lia]|]. split; [apply open_spec; done|].
  split; [destruct (lookup_lt_is_Some_2 m i ltac:(lia)) as [x Hx]; rewrite nth_lookup, Hx; done|].
  apply verify_iff; [done|]. unfold commitment, open_exp.
  generalize (α ^ (N - i)) (α ^ (N + 1)) (nth i m 0) (dot m (pows α 1 N)). intros a b c d. module.
Qed.
(** Misuse is caught: a message of the wrong length or an index out of range panics. *)
Theorem C07_misuse_panics : forall (C : Curve) N α m i mi π cm,
  let pp := NewPublicParams (C:=C) N α in
  (length m <> N -> Commit pp m = Panic) /\
  ((N <= i)%nat -> Open pp i m = Panic /\ Verify pp mi π cm i = Panic).
Proof.
  intros C N α m i mi π cm pp. split; [apply commit_panic|]. intros H. split; [apply open_panic|apply verify_panic]; done.
Qed.
(** The commitment is the expected combination of the parameters. *)
Theorem C07_commitment_value : forall (C : Curve) N α m, (1 <= N)%nat -> length m = N ->
  let pp := NewPublicParams (C:=C) N α in Commit pp m = Ret (msm m (take N (pp_G1s pp))).
Proof.
  intros C N α m HN Hm pp. unfold pp. rewrite commit_spec by done. f_equal. unfold commitment. rewrite <- msm_common_base. f_equal.
  cbn [pp_G1s NewPublicParams]. rewrite take_app_alt by (rewrite fmap_length, seq_length; done).
  unfold pows. rewrite <- list_fmap_compose. done.
Qed.
Print Assumptions C07_honest_openings_verify.
Print Assumptions C07_misuse_panics.
Print Assumptions C07_commitment_value.
Example C07_nonvacuous : exists cm mi π,
  let pp := NewPublicParams (C:=toy) 3 (zr 7) in
  Commit pp [zr 4; zr 5; zr 6] = Ret cm /\ Open pp 1 [zr 4; zr 5; zr 6] = Ret (mi, π) /\ mi = zr 5 /\ Verify pp mi π cm 1 = Ret nil_error.
Proof.
  destruct (C07_honest_openings_verify toy 3 (zr 7) [zr 4; zr 5; zr 6] 1) as (cm & mi & π & H1 & H2 & H3 & H4); [lia|done|lia|].
  exists cm, mi, π. cbv zeta. repeat split; try done. cbn in H3. congruence.
Qed.

(** ** C08 *)
Theorem C08_position_binding : forall (C : Curve) N α m m' π π' cm i, (i < N)%nat ->
  let pp := NewPublicParams (C:=C) N α in
  Verify pp m π cm i = Ret nil_error -> Verify pp m' π' cm i = Ret nil_error ->
  gadd π (gopp π') = gmul (m' - m) (withheld C N α) /\
  (m <> m' -> withheld C N α = gmul (zinv (m' - m)) (gadd π (gopp π'))).
Proof.
  intros C N α m m' π π' cm i Hi pp H H'. apply verify_iff in H, H'; [|done..].
  assert (E : gadd π (gopp π') = gmul (m' - m) (withheld C N α)).
  { rewrite H in H'. unfold withheld.
    transitivity (gadd (gadd π (gmul (m * α ^ (N + 1)) (gen1 C))) (gadd (gopp π') (gopp (gmul (m * α ^ (N + 1)) (gen1 C))))).
    - generalize (α ^ (N + 1)). intros a. module.
    - rewrite H'. generalize (α ^ (N + 1)). intros a. module. }
  split; [exact E|]. intros Hne. rewrite E, <- gmul_mul, zinv_l; [rewrite gmul_1; done|].
  intros E0. apply zsub_eq_0 in E0. congruence.
Qed.
Theorem C08_value_unique : forall (C : Curve) N α m m' π cm i, (i < N)%nat -> α <> 0 ->
  let pp := NewPublicParams (C:=C) N α in
  Verify pp m π cm i = Ret nil_error -> Verify pp m' π cm i = Ret nil_error -> m = m'.
Proof.
  intros C N α m m' π cm i Hi Hα pp H H'. destruct (C08_position_binding C N α m m' π π cm i Hi H H') as [E _].
  rewrite gadd_opp_r in E. symmetry in E. apply gmul_eq_0 in E. destruct E as [E|E]; [apply zsub_eq_0 in E; done|].
  unfold withheld in E. apply gmul_eq_0 in E. destruct E as [E|E]; [destruct (zpow_neq_0 α (N + 1) Hα E)|destruct (gen1_neq_0 E)].
Qed.
Print Assumptions C08_position_binding.
Print Assumptions C08_value_unique.
(** With the trapdoor, two different values can indeed be opened at one position, so the hypotheses
    of [C08_position_binding] can hold together with m <> m'. *)
Example C08_nonvacuous : forall cm, exists π π',
  let pp := NewPublicParams (C:=toy) 3 (zr 7) in
  Verify pp (zr 1) π cm 1 = Ret nil_error /\ Verify pp (zr 2) π' cm 1 = Ret nil_error.
Proof.
  intros cm. exists (gadd (gmul (zr 7 ^ 2) cm) (gopp (gmul (zr 1 * zr 7 ^ 4) (gen1 toy)))),
    (gadd (gmul (zr 7 ^ 2) cm) (gopp (gmul (zr 2 * zr 7 ^ 4) (gen1 toy)))).
  split; apply verify_iff; try lia; change (3 - 1)%nat with 2%nat; change (3 + 1)%nat with 4%nat;
  generalize (gen1 toy) (zr 7 ^ 2) (zr 7 ^ 4) (zr 1) (zr 2); intros g a b c d; module.
Qed.

(** ** C09 *)
(** Apply a list of updates (position, new value) with Update, keeping the vector alongside. *)
Fixpoint run_updates {C} (pp : PP C) (us : list (nat * Zr)) (cm : G1 C) (m : list Zr) : res (G1 C * list Zr) :=
  match us with
  | [] => Ret (cm, m)
  | (i, mi) :: us => let! cm := Update pp cm m mi i in run_updates pp us cm (<[i:=mi]> m)
  end.

Lemma dot_insert m i mi l : (i < length m)%nat -> length m = length l ->
  dot (<[i:=mi]> m) l = dot m l + (mi - nth i m 0) * nth i l 0.
Proof.
  revert i l; induction m as [|x m IH]; intros [|i] [|y l] Hi Hl; cbn in *; try lia; [ring|].
  rewrite IH by lia. ring.
Qed.

Theorem C09_update_is_recommit : forall (C : Curve) N α m i mi, (1 <= N)%nat -> length m = N -> (i < N)%nat ->
  let pp := NewPublicParams (C:=C) N α in
  exists cm cm', Commit pp m = Ret cm /\ Update pp cm m mi i = Ret cm' /\ Commit pp (<[i:=mi]> m) = Ret cm'.
Proof.
  intros C N α m i mi HN Hm Hi pp. exists (commitment N α m), (commitment N α (<[i:=mi]> m)).
  split; [apply commit_spec; done|]. split; [|apply commit_spec; [rewrite insert_length|]; done].
  unfold pp. rewrite update_spec by lia. f_equal. unfold commitment.
  rewrite dot_insert by (rewrite ?pows_length; lia).
  replace (nth i (pows α 1 N) 0) with (α ^ (i + 1)); [|unfold pows; rewrite nth_lookup, list_lookup_fmap, lookup_seq_lt by done; cbn; rewrite Nat.add_1_r; done].
  generalize (α ^ (i + 1)). intros a. module.
Qed.
Theorem C09_update_sequences : forall (C : Curve) N α us m, (2 <= N)%nat -> length m = N ->
  Forall (fun u => (fst u < N)%nat) us ->
  let pp := NewPublicParams (C:=C) N α in
  exists cm cm' m', Commit pp m = Ret cm /\ run_updates pp us cm m = Ret (cm', m') /\ Commit pp m' = Ret cm' /\
    forall i, (i < N)%nat -> exists mi π, Open pp i m' = Ret (mi, π) /\ m' !! i = Some mi /\ Verify pp mi π cm' i = Ret nil_error.
Proof.
  intros C N α us. induction us as [|[i mi] us IH]; intros m HN Hm Hus pp.
  - exists (commitment N α m), (commitment N α m), m. repeat split; try (apply commit_spec; [done|lia]).
    intros i Hi. destruct (C07_honest_openings_verify C N α m i HN Hm Hi) as (cm & mi & π & H1 & H2 & H3 & H4).
    rewrite commit_spec in H1 by (done || lia). injection H1 as <-. exists mi, π. done.
  - inversion Hus as [|? ? Hi Hus']; subst. cbn in Hi.
    destruct (C09_update_is_recommit C (length m) α m i mi) as (cm & cm' & H1 & H2 & H3); [lia|done|done|].
    destruct (IH (<[i:=mi]> m)) as (cm1 & cm2 & m' & K1 & K2 & K3 & K4); [done|apply insert_length|done|].
    rewrite H3 in K1. injection K1 as <-. exists cm, cm2, m'. cbn [run_updates].
    unfold pp. rewrite H2. cbn [rbind]. done.
Qed.
Print Assumptions C09_update_is_recommit.
Print Assumptions C09_update_sequences.
Example C09_nonvacuous : exists cm cm' m',
  let pp := NewPublicParams (C:=toy) 3 (zr 7) in
  Commit pp [zr 4; zr 5; zr 6] = Ret cm /\ run_updates pp [(0%nat, zr 9); (2%nat, zr 8); (0%nat, zr 1)] cm [zr 4; zr 5; zr 6] = Ret (cm', m') /\
  m' = [zr 1; zr 5; zr 8] /\ Commit pp m' = Ret cm'.
Proof.
  destruct (C09_update_sequences toy 3 (zr 7) [(0%nat, zr 9); (2%nat, zr 8); (0%nat, zr 1)] [zr 4; zr 5; zr 6]) as (cm & cm' & m' & H1 & H2 & H3 & _).
  - lia.
  - done.
  - repeat (constructor; [cbn; lia|]). constructor.
  - exists cm, cm', m'. cbv zeta in *. repeat split; try done.
    cbn [run_updates] in H2. repeat (apply rbind_inv in H2; destruct H2 as [? [_ H2]]). injection H2 as _ <-. done.
Qed.

(** ** C10 *)
Theorem C10_aggregated_openings_verify : forall (C : Curve) N α (entries : list (list Zr * nat)) ro,
  (2 <= N)%nat -> entries <> [] ->
  Forall (fun e => length (fst e) = N /\ (snd e < N)%nat) entries ->
  let pp := NewPublicParams (C:=C) N α in
  let RO := fun pp cs i => Ret (ro pp cs i) in
  exists cms opened πagg,
    mapM (fun e => Commit pp (fst e)) entries = Ret cms /\
    mapM (fun e => Open pp (snd e) (fst e)) entries = Ret opened /\
    Aggregate pp cms (snd <$> opened) RO = Ret πagg /\
    (forall k e, entries !! k = Some e -> exists π, opened !! k = Some (nth (snd e) (fst e) 0, π)) /\
    VerifyAggregation pp (snd <$> entries) cms πagg
      (dot (fst <$> opened) (ro pp cms <$> seq 0 (length entries))) RO = Ret nil_error.
Proof.
  intros C N α entries ro HN Hne Hall pp RO.
  set (cm := fun e : list Zr * nat => commitment N α (fst e) : G1 C).
  set (op := fun e : list Zr * nat => (nth (snd e) (fst e) 0, gmul (open_exp N α (snd e) (fst e)) (gen1 C))).
  assert (Hc : mapM (fun e => Commit pp (fst e)) entries = Ret (cm <$> entries)).
  { apply mapM_ret. intros e He. rewrite Forall_forall in Hall. destruct (Hall e He). apply commit_spec; [done|lia]. }
  assert (Ho : mapM (fun e => Open pp (snd e) (fst e)) entries = Ret (op <$> entries)).
  { apply mapM_ret. intros e He. rewrite Forall_forall in Hall. destruct (Hall e He). apply open_spec; done. }
  exists (cm <$> entries), (op <$> entries). eexists. split; [exact Hc|]. split; [exact Ho|].
  split; [unfold RO; apply aggregate_spec; [rewrite !fmap_length; done|destruct entries; done]|].
  split; [intros k e He; rewrite list_lookup_fmap, He; cbn; eexists; done|].
  unfold RO. apply verify_aggregation_iff.
  - apply Forall_fmap. eapply Forall_impl; [exact Hall|]. intros e [_ H]. exact H.
  - rewrite !fmap_length. done.
  - destruct entries; done.
  - rewrite !fmap_length. fold pp. set (t := ro pp (cm <$> entries)). clearbody t.
    rewrite <- !list_fmap_compose. remember (N + 1)%nat as N1 eqn:HN1. clear - Hall HN1. generalize 0%nat. induction entries as [|e entries IH]; intros k; [cbn; module|].
    apply Forall_cons in Hall. destruct Hall as [[Hl Hi] Hall'].
    cbn [length seq fmap list_fmap vmul zip_with msm dot]. unfold vmul in IH. rewrite (IH Hall').
    cbn [compose fst snd op cm]. unfold cm, op, compose; cbn [fst snd]. unfold commitment, open_exp. rewrite <- HN1.
    generalize (α ^ (N - snd e)) (α ^ N1) (nth (snd e) (fst e) 0) (dot (fst e) (pows α 1 N)). intros x a y z.
    repeat match goal with |- context [dot ?a ?b] => generalize (dot a b) | |- context [msm ?a ?b] => generalize (msm a b) end. intros.
    module.
Qed.
Print Assumptions C10_aggregated_openings_verify.
(** The oracle used in production is an instance. *)
Theorem C10_production_oracle : forall (C : Curve) (pp : PP C) cs i,
  RO pp cs i = Ret (fe (sha256 C (pp_Digest pp ++ [(Z.of_nat i mod 256)%Z] ++ concat (enc1 C <$> cs)))).
Proof. intros. apply RO_spec. Qed.
Example C10_nonvacuous : let entries := [([zr 1; zr 2], 0%nat); ([zr 3; zr 4], 1%nat)] in
  (2 <= 2)%nat /\ entries <> [] /\ Forall (fun e => length (fst e) = 2%nat /\ (snd e < 2)%nat) entries.
Proof. cbv zeta. split; [lia|]. split; [done|]. repeat constructor. Qed.

(** ** C11 *)
Theorem C11_aggregate_binds_sum : forall (C : Curve) N α ixs cs π π' S S' ro,
  Forall (fun i => (i < N)%nat) ixs -> length ixs = length cs -> cs <> [] ->
  let pp := NewPublicParams (C:=C) N α in
  let RO := fun pp cs i => Ret (ro pp cs i) in
  VerifyAggregation pp ixs cs π S RO = Ret nil_error ->
  VerifyAggregation pp ixs cs π' S' RO = Ret nil_error ->
  gadd π (gopp π') = gmul (S' - S) (withheld C N α) /\
  (S <> S' -> withheld C N α = gmul (zinv (S' - S)) (gadd π (gopp π'))).
Proof.
  intros C N α ixs cs π π' S S' ro Hi Hl Hne pp RO H H'.
  apply verify_aggregation_iff in H, H'; [|done..]. rewrite H in H'.
  assert (E : gadd π (gopp π') = gmul (S' - S) (withheld C N α)).
  { unfold withheld. revert H'. generalize (α ^ (N + 1)). intros a H'.
    transitivity (gadd (gadd π (gmul (S * a) (gen1 C))) (gadd (gopp π') (gopp (gmul (S * a) (gen1 C))))); [module|]. rewrite H'. module. }
  split; [exact E|]. intros Hs. rewrite E, <- gmul_mul, zinv_l; [rewrite gmul_1; done|].
  intros E0. apply zsub_eq_0 in E0. congruence.
Qed.
(** Individual opened values are not bound: shifting the weighted sum of the openings is all that matters.
    Any change of the openings that keeps the sum Σ t_k·v_k is invisible to the verifier. *)
Theorem C11_only_the_sum_matters : forall (C : Curve) N α ixs cs π ro v v',
  Forall (fun i => (i < N)%nat) ixs -> length ixs = length cs -> cs <> [] ->
  let pp := NewPublicParams (C:=C) N α in
  let RO := fun pp cs i => Ret (ro pp cs i) in
  let t := ro pp cs <$> seq 0 (length ixs) in
  α <> 0 ->
  VerifyAggregation pp ixs cs π (dot v t) RO = Ret nil_error ->
  (VerifyAggregation pp ixs cs π (dot v' t) RO = Ret nil_error <-> dot v t = dot v' t).
Proof.
  intros C N α ixs cs π ro v v' Hi Hl Hne pp RO t Hα H. split; [|intros <-; exact H].
  intros H'. destruct (C11_aggregate_binds_sum C N α ixs cs π π _ _ ro Hi Hl Hne H H') as [E _].
  rewrite gadd_opp_r in E. symmetry in E. apply gmul_eq_0 in E. destruct E as [E|E]; [apply zsub_eq_0 in E; done|].
  unfold withheld in E. apply gmul_eq_0 in E. destruct E as [E|E]; [destruct (zpow_neq_0 α (N + 1) Hα E)|destruct (gen1_neq_0 E)].
Qed.
Theorem C11_length_mismatch_panics : forall (C : Curve) N α ixs cs π S ro,
  length ixs <> length cs -> 
  VerifyAggregation (NewPublicParams (C:=C) N α) ixs cs π S (fun pp cs i => Ret (ro pp cs i)) = Panic.
Proof. intros. apply verify_aggregation_length. left. done. Qed.
Print Assumptions C11_aggregate_binds_sum.
Print Assumptions C11_only_the_sum_matters.
Print Assumptions C11_length_mismatch_panics.
(** Two openings with different sums do exist for whoever knows the trapdoor. *)
Example C11_nonvacuous : exists π π', let pp := NewPublicParams (C:=toy) 2 (zr 7) in
  let RO := fun (_ : PP toy) (_ : list (G1 toy)) i => Ret (zr (Z.of_nat i + 1)) in
  VerifyAggregation pp [0%nat; 1%nat] [gen1 toy; gen1 toy] π (zr 1) RO = Ret nil_error /\
  VerifyAggregation pp [0%nat; 1%nat] [gen1 toy; gen1 toy] π' (zr 2) RO = Ret nil_error.
Proof.
  set (A := msm (vmul ((fun i => zr (Z.of_nat i + 1)) <$> seq 0 2) ((fun i => zr 7 ^ (2 - i)) <$> [0%nat; 1%nat])) [gen1 toy; gen1 toy]).
  exists (gadd A (gopp (gmul (zr 1 * zr 7 ^ 3) (gen1 toy)))), (gadd A (gopp (gmul (zr 2 * zr 7 ^ 3) (gen1 toy)))).
  assert (forall s, A = gadd (gadd A (gopp (gmul (s * zr 7 ^ 3) (gen1 toy)))) (gmul (s * zr 7 ^ 3) (gen1 toy))) as E.
  { intros s. generalize A (zr 7 ^ 3) (gen1 toy). intros. module. }
  cbv zeta; split; (apply (verify_aggregation_iff (C:=toy) 2 (zr 7) _ _ _ _ (fun _ _ i => zr (Z.of_nat i + 1)));
   [repeat constructor|done|done|]); apply E.
Qed.
