(** Property C67: the inputs of all challenges.  Every challenge of the protocols is the image under
    FieldElementFromBytes of the hash of a byte string; the string determines the listed inputs, so two runs
    that differ in one of them have different strings (and equal challenges only by a collision).  What is
    not listed does not enter the challenge. *)
From Verif Require Import Range_run Sum_facts Poe_facts Model_verkle Toy.
Local Open Scope Zr_scope.

Section Enc.
  Context {C : Curve}.
  Lemma enc_app_inj (P P' : G1 C) s s' : enc1 C P ++ s = enc1 C P' ++ s' -> P = P' /\ s = s'.
  Proof. intros E. apply app_inj_1 in E; [|rewrite !enc1_len; done]. destruct E as [E ->]. split; [apply enc1_inj, E|done]. Qed.
  Lemma zr_app_inj x x' (s s' : bytes) : Zr_Bytes x ++ s = Zr_Bytes x' ++ s' -> x = x' /\ s = s'.
  Proof.
    intros E. apply app_inj_1 in E; [|rewrite !Zr_Bytes_length; done]. destruct E as [E ->]. split; [|done].
    apply (f_equal be_val) in E. rewrite !be_val_Zr_Bytes in E. rewrite <- (zr_zv x), <- (zr_zv x'), E. done.
  Qed.
  Lemma zr_bytes_inj x x' : Zr_Bytes x = Zr_Bytes x' -> x = x'.
  Proof. intros E. apply (zr_app_inj x x' [] []). rewrite E. done. Qed.
  Lemma encs_inj (a b : list (G1 C)) : concat (enc1 C <$> a) = concat (enc1 C <$> b) -> a = b.
  Proof.
    revert b. pose proof (g1_len_bound C) as Hb. induction a as [|P a IH]; intros [|Q b] E; cbn [fmap list_fmap concat] in E; [done| | |].
    - apply (f_equal length) in E. rewrite app_length, enc1_len in E. cbn in E. lia.
    - apply (f_equal length) in E. rewrite app_length, enc1_len in E. cbn in E. lia.
    - apply enc_app_inj in E. destruct E as [-> E]. f_equal. apply IH, E.
  Qed.
  Lemma encs_length (a : list (G1 C)) : length (concat (enc1 C <$> a)) = (length a * g1_len C)%nat.
  Proof. induction a as [|P a IH]; [done|]. cbn [fmap list_fmap concat length]. rewrite app_length, enc1_len, IH. lia. Qed.
  Lemma encs_app_inj (a b : list (G1 C)) s s' : length a = length b -> concat (enc1 C <$> a) ++ s = concat (enc1 C <$> b) ++ s' -> a = b /\ s = s'.
  Proof. intros L E. apply app_inj_1 in E; [|rewrite !encs_length; lia]. destruct E as [E ->]. split; [apply encs_inj, E|done]. Qed.
  Lemma G1v_Bytes_concat (a : list (G1 C)) : G1v_Bytes a = concat (enc1 C <$> a).
  Proof. induction a as [|P a IH]; [done|]. cbn. f_equal. Qed.
End Enc.

(** ** PointProofs, pp/pointproofs.go:170-180 *)
Definition ro_input {C : Curve} (D : bytes) (cs : list (G1 C)) (i : nat) : bytes :=
  D ++ [(Z.of_nat i mod 256)%Z] ++ concat (enc1 C <$> cs).
Theorem C67_pointproofs : forall (C : Curve),
  (forall (pp : PP C) cs i, RO pp cs i = Ret (fe (sha256 C (ro_input (pp_Digest pp) cs i)))) /\
  (forall D D' (cs cs' : list (G1 C)) i i', length D = length D' -> (i < 256)%nat -> (i' < 256)%nat ->
    ro_input D cs i = ro_input D' cs' i' -> D = D' /\ cs = cs' /\ i = i').
Proof.
  intros C. split; [intros; apply fe_sha|]. intros D D' cs cs' i i' LD Hi Hi' E. unfold ro_input in E.
  apply app_inj_1 in E; [|done]. destruct E as [-> E]. cbn [app] in E. inversion E as [[E1 E2]].
  rewrite !Z.mod_small in E1 by lia. split; [done|]. split; [apply encs_inj, E2|lia].
Qed.

(** ** Inner product argument, bp/innerprod.go:34-44, 102-117, 216-253 *)
(** The first challenge depends on the digest of the parameters only, a round's challenge on the round's L and R and the
    digest: the claim (P, c) and the other rounds do not enter. *)
Definition ipa_input {C : Curve} (L R : G1 C) (D : bytes) : bytes := enc1 C L ++ enc1 C R ++ D.
Theorem C67_inner_product : forall (C : Curve),
  (forall (pp : bpPP C) P c pp' P', computeInstanceSpecificParams pp P c = Ret (pp', P') ->
     P' = gadd P (gmul (fe (sha256 C (bp_Digest pp)) * c) (bp_U pp))) /\
  (forall (L R : G1 C) pp g h P nx, computeNextParams L R pp g h P = Ret nx -> np_x nx = fe (sha256 C (ipa_input L R (bp_Digest pp)))) /\
  (forall (L R L' R' : G1 C) D D', ipa_input L R D = ipa_input L' R' D' -> L = L' /\ R = R' /\ D = D').
Proof.
  intros C. split; [|split].
  - intros pp P c pp' P' H. unfold computeInstanceSpecificParams, SHA256Digest in H. rewrite fe_sha in H. cbn [rbind] in H.
    apply rbind_inv in H. destruct H as (q & _ & H). inversion H. done.
  - intros L R pp g h P nx H. unfold computeNextParams, randomOracle in H. rewrite fe_sha in H. cbn [rbind] in H.
    repeat (apply rbind_inv in H; destruct H as (? & _ & H)). inversion H. done.
  - intros L R L' R' D D' E. unfold ipa_input in E. apply enc_app_inj in E. destruct E as [-> E]. apply enc_app_inj in E. destruct E as [-> ->]. done.
Qed.
(** The digest of the parameters: with as many h as g (or with none on both sides) the string determines the generators ... *)
Definition setup_input {C : Curve} (G H : list (G1 C)) (U : G1 C) : bytes :=
  enc1 C U ++ concat (enc1 C <$> match H with [] => G | _ => concat (zip_with (fun g h => [g; h]) G H) end).
Lemma setup_input_pre {C : Curve} (G H : list (G1 C)) U : setup_input G H U = setup_pre G H U.
Proof.
  unfold setup_input, setup_pre. destruct H as [|h0 H]; [done|]. f_equal. generalize (h0 :: H). clear. intros H. revert H.
  induction G as [|g G IH]; intros [|h H]; try done. cbn [zip_with concat fmap list_fmap]. rewrite fmap_app, concat_app.
  cbn [fmap list_fmap concat]. rewrite app_nil_r. rewrite IH. done.
Qed.
Theorem C67_setup : forall (C : Curve),
  (forall pp : bpPP C, bp_H pp = [] \/ length (bp_G pp) = length (bp_H pp) ->
    exists pp', setupDigest pp = Ret pp' /\ bp_Digest pp' = sha256 C (setup_input (bp_G pp) (bp_H pp) (bp_U pp))) /\
  (forall (G H G' H' : list (G1 C)) U U', length G = length H -> length G' = length H' ->
    setup_input G H U = setup_input G' H' U' -> G = G' /\ H = H' /\ U = U') /\
  (forall (G G' : list (G1 C)) U U', setup_input G [] U = setup_input G' [] U' -> G = G' /\ U = U').
Proof.
  intros C. split; [|split].
  - intros pp Hpp. rewrite setup_digest_spec by (destruct Hpp as [Hpp|Hpp]; [left; done|right; lia]). eexists. split; [done|].
    cbn [bp_Digest]. rewrite setup_input_pre. done.
  - assert (Hz : forall G H G' H' : list (G1 C), length G = length H -> length G' = length H' ->
      concat (zip_with (fun g h => [g; h]) G H) = concat (zip_with (fun g h => [g; h]) G' H') -> G = G' /\ H = H').
    { induction G as [|g G IH]; intros [|h H] [|g' G'] [|h' H'] L L' E; cbn in L, L', E; try lia; try done.
      inversion E as [[E1 E2 E3]]. destruct (IH H G' H' ltac:(lia) ltac:(lia) E3) as [-> ->]. done. }
    intros G H G' H' U U' L L' E. unfold setup_input in E. apply enc_app_inj in E. destruct E as [-> E]. apply encs_inj in E.
    assert (E0 : forall G H : list (G1 C), length G = length H ->
      match H with [] => G | _ => concat (zip_with (fun g h => [g; h]) G H) end = concat (zip_with (fun g h => [g; h]) G H)).
    { intros [|] [|] HL; try done. }
    rewrite !E0 in E by done. destruct (Hz G H G' H' L L' E) as [-> ->]. done.
  - intros G G' U U' E. unfold setup_input in E. apply enc_app_inj in E. destruct E as [-> E]. apply encs_inj in E. subst. done.
Qed.
(** ... but parameters without h share their digest with parameters whose g and h alternate in it. *)
Theorem C67_setup_ambiguous : forall (C : Curve) (G H : list (G1 C)) U, length G = length H -> G <> [] ->
  exists G', length G' = (2 * length G)%nat /\ setup_input G' [] U = setup_input G H U.
Proof.
  intros C G H U L Hne. exists (concat (zip_with (fun g h => [g; h]) G H)). split.
  - clear Hne. revert H L. induction G as [|g G IH]; intros [|h H] L; cbn in L; try lia; [done|]. cbn. rewrite IH by lia. lia.
  - unfold setup_input. destruct H as [|h H]; [destruct G; [done|cbn in L; lia]|]. done.
Qed.

(** ** Iterated reduction, bp/ir.go *)
Definition ir_input {C : Curve} (A B : G1 C) (D : bytes) (V : G1 C) : bytes := sha256 C (ipa_input A B D) ++ enc1 C V.
Fixpoint ir_transcript {C : Curve} (D : bytes) (V : G1 C) (Δ : list (G1 C * G1 C * G1 C)) : list Zr :=
  match Δ with [] => [] | (A, B, V') :: Δ => fe (sha256 C (ir_input A B D V)) :: ir_transcript D V' Δ end.
Theorem C67_reduction : forall (C : Curve),
  (forall (pp : bpPP C) k V Δ u xs w, length (bp_G pp) = (2 ^ k)%nat -> (1 <= k < 16)%nat -> length Δ = k ->
     IterativeVerify pp V Δ u = Ret (inl (xs, w)) -> xs = ir_transcript (bp_Digest pp) V Δ) /\
  (forall (pp : bpPP C) k v V Δ xs u, length (bp_G pp) = (2 ^ k)%nat -> length v = (2 ^ k)%nat -> (1 <= k < 16)%nat ->
     IterativeReduce pp v V = Ret (Δ, xs, u) -> xs = ir_transcript (bp_Digest pp) V Δ) /\
  (forall (A B A' B' V V' : G1 C) D D', ir_input A B D V = ir_input A' B' D' V' ->
    V = V' /\ sha256 C (ipa_input A B D) = sha256 C (ipa_input A' B' D')).
Proof.
  intros C. assert (Ht : forall D (V : G1 C) Δ, ir_chal D V Δ = ir_transcript D V Δ).
  { intros D V Δ. revert V. induction Δ as [|[[A B] V'] Δ IH]; intros V; [done|]. cbn [ir_chal ir_transcript]. rewrite IH. done. }
  split; [|split].
  - intros pp k V Δ u xs w HG Hk HΔ H. destruct (iterative_verify_spec k pp V Δ u HG Hk) as (res & Hres & [(_ & _ & ->)|[_ [msg ->]]]); [lia| |];
      rewrite Hres in H; [|done]. rewrite take_ge in H by lia. inversion H. apply Ht.
  - intros pp k v V Δ xs u HG Hv Hk H. destruct (iterative_reduce_spec k pp v V HG Hv Hk) as (Δ' & HΔ & Hrun & _). cbn zeta in Hrun.
    rewrite Hrun in H. inversion H. apply Ht.
  - intros A B A' B' V V' D D' E. unfold ir_input in E. apply app_inj_1 in E; [|rewrite !sha256_len; done].
    destruct E as [E1 E2]. split; [apply enc1_inj, E2|exact E1].
Qed.

(** ** Range proof, bp/range.go: x covers V, W, Q; y0 and y1 cover x, Q, R; z covers Q, R, C1, C2, y0, y1.  The triples Δ and the scalar
    u of the reduction enter none of them. *)
Definition x_input {C : Curve} (D : bytes) (V W Q : G1 C) : bytes := D ++ enc1 C V ++ enc1 C W ++ enc1 C Q.
Definition y_input {C : Curve} (D : bytes) (b : Z) (x : Zr) (Q R : G1 C) : bytes := enc1 C Q ++ enc1 C R ++ [b] ++ D ++ Zr_Bytes x.
Definition z_input {C : Curve} (D : bytes) (C1 C2 Q R : G1 C) (y0 y1 : Zr) : bytes :=
  enc1 C Q ++ enc1 C R ++ D ++ enc1 C C1 ++ enc1 C C2 ++ Zr_Bytes y0 ++ Zr_Bytes y1.
Theorem C67_range : forall (C : Curve) (pp : RPPP C),
  (forall V W Q, rangeProofRO1 pp V W Q = Ret (fe (sha256 C (x_input (rp_Digest pp) V W Q)))) /\
  (forall b x Q R, rp_y pp b x Q R = Ret (fe (sha256 C (y_input (rp_Digest pp) b x Q R)))) /\
  (forall C1 C2 Q R y0 y1, computeZ pp C1 C2 Q R (Zr_Bytes y0) (Zr_Bytes y1) = Ret (fe (sha256 C (z_input (rp_Digest pp) C1 C2 Q R y0 y1)))).
Proof.
  intros C pp. split; [|split]; intros.
  - apply rangeProofRO1_spec.
  - apply rp_y_spec.
  - apply computeZ_spec.
Qed.
Theorem C67_range_inputs : forall (C : Curve) D D', length D = length D' ->
  (forall V V' W W' Q Q' : G1 C, x_input D V W Q = x_input D' V' W' Q' -> D = D' /\ V = V' /\ W = W' /\ Q = Q') /\
  (forall b b' x x' (Q Q' R R' : G1 C), y_input D b x Q R = y_input D' b' x' Q' R' -> D = D' /\ b = b' /\ x = x' /\ Q = Q' /\ R = R') /\
  (forall (C1 C1' C2 C2' Q Q' R R' : G1 C) y0 y0' y1 y1', z_input D C1 C2 Q R y0 y1 = z_input D' C1' C2' Q' R' y0' y1' ->
    D = D' /\ C1 = C1' /\ C2 = C2' /\ Q = Q' /\ R = R' /\ y0 = y0' /\ y1 = y1').
Proof.
  intros C D D' L. split; [|split].
  - intros V V' W W' Q Q' E. unfold x_input in E. apply app_inj_1 in E; [|done]. destruct E as [-> E].
    apply enc_app_inj in E. destruct E as [-> E]. apply enc_app_inj in E. destruct E as [-> E]. apply enc1_inj in E. subst. done.
  - intros b b' x x' Q Q' R R' E. unfold y_input in E. apply enc_app_inj in E. destruct E as [-> E]. apply enc_app_inj in E. destruct E as [-> E].
    cbn [app] in E. inversion E as [[E1 E2]]. apply app_inj_1 in E2; [|done]. destruct E2 as [-> E2]. apply zr_bytes_inj in E2. subst. done.
  - intros C1 C1' C2 C2' Q Q' R R' y0 y0' y1 y1' E. unfold z_input in E. apply enc_app_inj in E. destruct E as [-> E]. apply enc_app_inj in E. destruct E as [-> E].
    apply app_inj_1 in E; [|done]. destruct E as [-> E]. apply enc_app_inj in E. destruct E as [-> E]. apply enc_app_inj in E. destruct E as [-> E].
    apply zr_app_inj in E. destruct E as [-> E]. apply zr_bytes_inj in E. subst. split_and!; done.
Qed.

(** ** Sum argument, sum/sa.go:90-103, 175-183: the parameters do not enter. *)
Definition sum_input {C : Curve} (c : Zr) (V W : G1 C) : bytes := Zr_Bytes c ++ enc1 C V ++ enc1 C W.
Theorem C67_sum : forall (C : Curve),
  (forall c (V W : G1 C), randomOracleCVW c V W = Ret (fe (sha256 C (sum_input c V W)))) /\
  (forall c c' (V V' W W' : G1 C), sum_input c V W = sum_input c' V' W' -> c = c' /\ V = V' /\ W = W') /\
  (forall (V : list (G1 C)) m, createHVZKChallenge V m = Ret (PowerSeries m (fe (sha256 C (concat (enc1 C <$> V)))))) /\
  (forall V V' : list (G1 C), concat (enc1 C <$> V) = concat (enc1 C <$> V') -> V = V').
Proof.
  intros C. split; [intros; apply fe_sha|]. split; [|split].
  - intros c c' V V' W W' E. unfold sum_input in E. apply zr_app_inj in E. destruct E as [-> E]. apply enc_app_inj in E. destruct E as [-> E].
    apply enc1_inj in E. subst. done.
  - intros V m. unfold createHVZKChallenge. rewrite fe_sha. cbn [rbind]. rewrite G1v_Bytes_concat. done.
  - apply encs_inj.
Qed.

(** ** Equality arguments, poe/poe.go:257-299 *)
Definition poe_input {C : Curve} (gs : list (G1 C)) (ns : list nat) (D : bytes) : bytes :=
  concat (enc1 C <$> gs) ++ concat ((fun n => be_bytes 2 (Z.of_nat n)) <$> ns) ++ D.
Theorem C67_equality : forall (C : Curve),
  (forall (gs : list (G1 C)) ns D n, poe_RO gs ns D n =
    Ret ((fun i => fe (hmac C (sha256 C (poe_input gs ns D)) (be_bytes 2 (Z.of_nat i)))) <$> seq 0 n)) /\
  (forall (gs gs' : list (G1 C)) ns ns' D D', length ns = length ns' -> length D = length D' ->
    Forall (fun n => Z.of_nat n < 65536)%Z ns -> Forall (fun n => Z.of_nat n < 65536)%Z ns' ->
    poe_input gs ns D = poe_input gs' ns' D' -> gs = gs' /\ ns = ns' /\ D = D') /\
  (forall i i', (Z.of_nat i < 65536)%Z -> (Z.of_nat i' < 65536)%Z -> be_bytes 2 (Z.of_nat i) = be_bytes 2 (Z.of_nat i') -> i = i').
Proof.
  intros C.
  assert (H2 : forall i i', (Z.of_nat i < 65536)%Z -> (Z.of_nat i' < 65536)%Z -> be_bytes 2 (Z.of_nat i) = be_bytes 2 (Z.of_nat i') -> i = i').
  { intros i i' Hi Hi' E. apply (f_equal be_val) in E. change (256 ^ Z.of_nat 2)%Z with 65536%Z in *.
    rewrite !be_val_be_bytes in E by (change (256 ^ Z.of_nat 2)%Z with 65536%Z; lia). lia. }
  split; [intros; apply poe_RO_spec|]. split; [|exact H2].
  assert (Hns : forall ns ns', length ns = length ns' -> Forall (fun n => Z.of_nat n < 65536)%Z ns -> Forall (fun n => Z.of_nat n < 65536)%Z ns' ->
    concat ((fun n => be_bytes 2 (Z.of_nat n)) <$> ns) = concat ((fun n => be_bytes 2 (Z.of_nat n)) <$> ns') -> ns = ns').
  { induction ns as [|n ns IH]; intros [|n' ns'] L F F' E; cbn in L; try lia; [done|]. cbn [fmap list_fmap concat] in E.
    apply Forall_cons in F, F'. destruct F as [F1 F], F' as [F1' F']. apply app_inj_1 in E; [|rewrite !be_bytes_length; done].
    destruct E as [E1 E]. apply H2 in E1; [|done..]. subst. f_equal. apply IH; first [done|lia]. }
  assert (Lns : forall ns, length (concat ((fun n => be_bytes 2 (Z.of_nat n)) <$> ns)) = (2 * length ns)%nat).
  { induction ns as [|n ns IH]; [done|]. cbn [fmap list_fmap concat length]. rewrite app_length, be_bytes_length, IH. lia. }
  intros gs gs' ns ns' D D' L LD F F' E. unfold poe_input in E.
  apply app_inj_2 in E; [|rewrite !app_length, !Lns; lia]. destruct E as [E1 E2]. apply encs_inj in E1.
  apply app_inj_2 in E2; [|done]. destruct E2 as [E2 ->]. apply (Hns ns ns' L F F') in E2. rewrite E1, E2. done.
Qed.
(** The aggregated argument passes no integers: the positions it proves equal do not enter its challenges (lines 71-127). *)

(** ** Vertex digests, verkle/tree.go:165-173 *)
Definition vertex_input {C : Curve} (V : G1 C) (W : option (G1 C)) : bytes := enc1 C V ++ match W with Some W => enc1 C W | None => [] end.
Theorem C67_vertex : forall (C : Curve),
  (forall v : Vertex C, Vertex_Digest v = Ret (fe (sha256 C (vertex_input (v_V v) (v_W v))))) /\
  (forall (V V' : G1 C) W W', vertex_input V W = vertex_input V' W' -> V = V' /\ W = W').
Proof.
  intros C. split; [intros; apply fe_sha|]. intros V V' W W' E. unfold vertex_input in E. apply enc_app_inj in E. destruct E as [-> E].
  split; [done|]. pose proof (g1_len_bound C) as Hb.
  destruct W as [W|], W' as [W'|]; [apply enc1_inj in E; subst; done| | |done]; apply (f_equal length) in E; rewrite enc1_len in E; cbn in E; lia.
Qed.

(** ** Digests of parameters *)
(** pp/pointproofs.go:67-77, poe/poe.go:44-51, bp/range.go:38-53, sum/sa.go:47-54 *)
Definition commitment_params {C : Curve} (G1s : list (G1 C)) (G2s : list (G2 C)) (T : GT C) : bytes :=
  concat (enc1 C <$> G1s) ++ concat (enc2 C <$> G2s) ++ encT C T.
Definition equality_params {C : Curve} (G H : list (G1 C)) (F : G1 C) (D : bytes) : bytes :=
  concat (enc1 C <$> G) ++ concat (enc1 C <$> H) ++ enc1 C F ++ D.
Definition range_params {C : Curve} (G H F : G1 C) (Gs Hs Fs : list (G1 C)) : bytes :=
  enc1 C G ++ enc1 C H ++ enc1 C F ++ concat (enc1 C <$> Gs) ++ concat (enc1 C <$> Hs) ++ concat (enc1 C <$> Fs).
Definition sum_params {C : Curve} (H : list (G1 C)) (B G F : G1 C) : bytes := concat (enc1 C <$> H) ++ enc1 C B ++ enc1 C G ++ enc1 C F.
(** Each kind of fresh parameters carries the hash of such a string.  The digest of the range parameters is computed when there is none yet. *)
Theorem C67_parameters : forall (C : Curve),
  (forall N α, let pp := NewPublicParams (C:=C) N α in pp_Digest pp = sha256 C (commitment_params (pp_G1s pp) (pp_G2s pp) (pp_Gt pp))) /\
  (forall n m α (pp : poePP C), poe_NewPublicParams n m α = Ret pp -> pe_Digest pp = sha256 C (equality_params (pe_G pp) (pe_H pp) (pe_F pp) (pp_Digest (pe_PP pp)))) /\
  (forall n (pp : RPPP C), NewRangeProofPublicParams n = Ret pp -> rp_Digest pp = sha256 C (range_params (rp_G pp) (rp_H pp) (rp_F pp) (rp_Gs pp) (rp_Hs pp) (rp_Fs pp))) /\
  (forall pp : RPPP C, rp_Digest pp = match rp_digest pp with [] => sha256 C (range_params (rp_G pp) (rp_H pp) (rp_F pp) (rp_Gs pp) (rp_Hs pp) (rp_Fs pp)) | D => D end) /\
  (forall n (pp : sumPP C), sum_NewPublicParams n = Ret pp -> sp_Digest pp = sha256 C (sum_params (sp_H pp) (sp_B pp) (sp_G pp) (sp_F pp))).
Proof.
  intros C. assert (Hf : forall pp : RPPP C, rp_fresh_digest pp = sha256 C (range_params (rp_G pp) (rp_H pp) (rp_F pp) (rp_Gs pp) (rp_Hs pp) (rp_Fs pp))) by (intros pp; unfold rp_fresh_digest; rewrite !G1v_Bytes_concat; done).
  assert (Hd : forall pp : RPPP C, rp_Digest pp = match rp_digest pp with [] => sha256 C (range_params (rp_G pp) (rp_H pp) (rp_F pp) (rp_Gs pp) (rp_Hs pp) (rp_Fs pp)) | D => D end) by (intros pp; unfold rp_Digest; rewrite Hf; destruct (rp_digest pp); done).
  split; [done|]. split; [|split; [|split; [exact Hd|]]].
  - intros n m α pp H. unfold poe_NewPublicParams in H. apply rbind_inv in H as (F & _ & H). injection H as <-. unfold poe_SetupDigest. cbn [pe_Digest pe_G pe_H pe_F pe_PP]. rewrite !G1v_Bytes_concat. done.
  - intros n pp H. unfold NewRangeProofPublicParams in H. apply rbind_inv in H as (G & _ & H). apply rbind_inv in H as (H0 & _ & H). apply rbind_inv in H as (F & _ & H). injection H as <-.
    rewrite (Hd (MkRPPP _ _ _ _ _ _ (rp_Digest _))). cbn [rp_digest rp_G rp_H rp_F rp_Gs rp_Hs rp_Fs]. rewrite Hd. cbn [rp_digest rp_G rp_H rp_F rp_Gs rp_Hs rp_Fs].
    destruct (sha256 C _) eqn:E; [|done]. apply (f_equal length) in E. rewrite sha256_len in E. cbn in E. lia.
  - intros n pp H. unfold sum_NewPublicParams in H. repeat (apply rbind_inv in H as (? & _ & H)). injection H as <-. done.
Qed.
(** The strings of parameters for the same sizes determine the parameters (of the vector commitment: the first group's part, whose first element
    is the trapdoor times the generator; nothing is assumed about the encodings of the other groups). *)
Theorem C67_parameters_inputs : forall (C : Curve),
  (forall (G1s G1s' : list (G1 C)) (G2s G2s' : list (G2 C)) T T', length G1s = length G1s' ->
     commitment_params G1s G2s T = commitment_params G1s' G2s' T' -> G1s = G1s') /\
  (forall (G G' H H' : list (G1 C)) F F' D D', length G = length G' -> length H = length H' ->
     equality_params G H F D = equality_params G' H' F' D' -> G = G' /\ H = H' /\ F = F' /\ D = D') /\
  (forall (G G' H H' F F' : G1 C) Gs Gs' Hs Hs' Fs Fs', length Gs = length Gs' -> length Hs = length Hs' ->
     range_params G H F Gs Hs Fs = range_params G' H' F' Gs' Hs' Fs' -> G = G' /\ H = H' /\ F = F' /\ Gs = Gs' /\ Hs = Hs' /\ Fs = Fs') /\
  (forall (H H' : list (G1 C)) B B' G G' F F', length H = length H' -> sum_params H B G F = sum_params H' B' G' F' -> H = H' /\ B = B' /\ G = G' /\ F = F').
Proof.
  intros C. split; [|split; [|split]].
  - intros G1s G1s' G2s G2s' T T' L E. unfold commitment_params in E. apply encs_app_inj in E as [-> E]; done.
  - intros G G' H H' F F' D D' L L2 E. unfold equality_params in E. apply encs_app_inj in E as [-> E]; [|done]. apply encs_app_inj in E as [-> E]; [|done]. apply enc_app_inj in E as [-> ->]. done.
  - intros G G' H H' F F' Gs Gs' Hs Hs' Fs Fs' L L2 E. unfold range_params in E. apply enc_app_inj in E as [-> E]. apply enc_app_inj in E as [-> E]. apply enc_app_inj in E as [-> E].
    apply encs_app_inj in E as [-> E]; [|done]. apply encs_app_inj in E as [-> E]; [|done]. apply encs_inj in E as ->. done.
  - intros H H' B B' G G' F F' L E. unfold sum_params in E. apply encs_app_inj in E as [-> E]; [|done]. apply enc_app_inj in E as [-> E]. apply enc_app_inj in E as [-> E]. apply enc1_inj in E as ->. done.
Qed.

Print Assumptions C67_pointproofs.
Print Assumptions C67_inner_product.
Print Assumptions C67_setup.
Print Assumptions C67_setup_ambiguous.
Print Assumptions C67_reduction.
Print Assumptions C67_range.
Print Assumptions C67_range_inputs.
Print Assumptions C67_sum.
Print Assumptions C67_equality.
Print Assumptions C67_vertex.
Print Assumptions C67_parameters.
Print Assumptions C67_parameters_inputs.
(** The strings of two inputs that differ are indeed different, and the ambiguous pair exists. *)
Example C67_nonvacuous : length (sha256 toy []) = length (sha256 toy [1%Z]) /\
  (exists G', length G' = 2%nat /\ @setup_input toy G' [] (zr 3) = @setup_input toy [zr 1] [zr 2] (zr 3)) /\
  bp_H (@MkBpPP toy [] [zr 1] [] (zr 3)) = [].
Proof. split; [rewrite !sha256_len; done|]. split; [|done]. exact (C67_setup_ambiguous toy [zr 1] [zr 2] (zr 3) eq_refl ltac:(done)). Qed.
Example C67_parameters_nonvacuous : exists (pp : RPPP toy) (sp : sumPP toy) (ep : poePP toy), NewRangeProofPublicParams 2 = Ret pp /\ sum_NewPublicParams 2 = Ret sp /\ poe_NewPublicParams 3 2 (zr 5) = Ret ep.
Proof. eexists _, _, _. split; [unfold NewRangeProofPublicParams; cbn [RandGenVec idx rbind]; reflexivity|]. split; reflexivity. Qed.
