(** Property C55: what acceptance of a liability proof amounts to. *)
From Verif Require Import Prop_range Prop_sum Prop_poe Toy Pol_run.
Local Open Scope Zr_scope.

Section Accept.
  Context {C : Curve}.

  (** The scalar to which a hash of the listed group elements is converted *)
  Definition hash_scalar (l : list (G1 C)) : Zr := fe (sha256 C (concat (enc1 C <$> l))).

  (** The statement "entry path[i] of the vector in Vs[i] is the entry [fanout] of the vector in Vs[i+1]" for all consecutive
      commitments of the path, filled up to m equalities with zc at index 0 *)
  Definition path_equalities (pp : PolPP C) (zc : G1 C) (m : nat) (p : path) (Vs : list (G1 C)) : Equalities C :=
    let k := (length p - 1)%nat in
    MkEqs poe_RO (po_POEPP pp) (take k Vs ++ replicate (m - k) zc) (take k (drop 1 Vs) ++ replicate (m - k) zc)
      (take k p ++ replicate (m - k) 0%nat) (replicate k (po_Fanout pp) ++ replicate (m - k) 0%nat).

  (** The proof lp for the path p passes all checks against the root V, W. *)
  Record accepted (pp : PolPP C) (p : path) (V W : G1 C) (lp : LiabilityProof C) : Prop := MkAcc {
    acc_W : (length (lp_W lp) + 1)%nat = length p;
    acc_Digests : length (lp_Digests lp) = length p;
    acc_rootV : lp_V lp !! 0%nat = Some V;
    acc_rootW : lp_W lp !! 0%nat = Some W;
    acc_range : forall i, (i < length p)%nat -> exists rp Vi, lp_RangeProofs lp !! i = Some rp /\ lp_V lp !! i = Some Vi /\
      VerifyRange (po_RPPP pp) rp Vi = Ret nil_error;
    acc_inner : forall i Vi Wi, (1 <= i < length p - 1)%nat -> lp_V lp !! i = Some Vi -> lp_W lp !! i = Some Wi ->
      lp_Digests lp !! (i - 1)%nat = Some (hash_scalar [Vi; Wi]);
    acc_bottom : forall Vi, lp_V lp !! (length p - 1)%nat = Some Vi -> lp_Digests lp !! (length p - 2)%nat = Some (hash_scalar [Vi]);
    acc_aggregate : VerifyAggregation (po_PPPP pp) (take (length p - 1) p) (lp_W lp) (lp_π lp) (lp_Σ lp) RO = Ret nil_error;
    acc_sum : sum_VerifyAggregated (lp_sum lp) (po_SAPP pp) (lp_V lp) = Ret nil_error;
    acc_equalities : exists zc m, Commit (po_PPPP pp) (zeros (po_Fanout pp + 2)) = Ret zc /\ pad_to_pow2 (length p - 1) = Ret m /\
      Equalities_Verify (path_equalities pp zc m p (lp_V lp)) (lp_Eq lp) = Ret nil_error;
    acc_liability : exists Vn i, last (lp_V lp) = Some Vn /\ last p = Some i /\
      Verify (po_PPPP pp) (zr (tp_Sum (lp_Liability lp))) (tp_proof (lp_Liability lp)) Vn i = Ret nil_error }.

  Lemma idx_inv {A} (l : list A) i a : idx l i = Ret a <-> l !! i = Some a.
  Proof. unfold idx. destruct (l !! i); split; congruence. Qed.
  Lemma idx_last_inv {A} (l : list A) a : idx_last l 0 = Ret a <-> last l = Some a.
  Proof.
    unfold idx_last, idxZ. rewrite last_lookup. destruct l as [|x l]; [done|]. cbn [length].
    destruct (Z.ltb_spec (Z.of_nat (S (length l)) - 1 - Z.of_nat 0) 0); [lia|]. replace (Z.to_nat _) with (pred (S (length l))) by lia. apply idx_inv.
  Qed.

  Lemma mapM_idx_take {A} f (l : list A) off k vs : (forall i, f i = idx l (i + off)) ->
    mapM f (seq 0 k) = Ret vs <-> (k + off <= length l \/ k = 0)%nat /\ vs = take k (drop off l).
  Proof.
    intros Hf. assert (G : forall k s, mapM f (seq s k) = if decide (k + s + off <= length l \/ k = 0)%nat then Ret (take k (drop (s + off) l)) else Panic).
    { clear -Hf. induction k as [|k IH]; intros s; [rewrite decide_True by auto; done|]. cbn [seq mapM]. rewrite IH, Hf. unfold idx. destruct (l !! (s + off)%nat) as [x|] eqn:E; cbn [rbind].
      - apply lookup_lt_Some in E as Hlt. rewrite (drop_S _ _ _ E). cbn [take]. replace (S s + off)%nat with (S (s + off)) by lia.
        destruct (decide (k + S s + off <= length l \/ k = 0)%nat), (decide (S k + s + off <= length l \/ S k = 0)%nat); try lia; done.
      - apply lookup_ge_None in E. rewrite decide_False by lia. done. }
    rewrite G, Nat.add_0_r, Nat.add_0_l. destruct (decide _) as [H|H].
    - split; [intros [= <-]; done|intros [_ ->]; done].
    - split; [done|]. intros [? _]. done.
  Qed.

  Lemma verify_loop_accept (pp : PolPP C) lp p is : forall st, verify_loop pp lp p is st = Ret (inl nil_error) <->
    st = nil_error /\ Forall (fun i => (exists rp V, verify_args lp p i = Ret (rp, V) /\ VerifyRange (po_RPPP pp) rp V = Ret nil_error) /\ verify_digest lp p i = Ret nil_error) is.
  Proof.
    induction is as [|i is IH]; intros st; cbn [verify_loop].
    - split; [intros [= ->]; split; [done|constructor]|]. intros [-> _]. done.
    - split.
      + intros H. apply rbind_inv in H as ([rp V] & H1 & H). apply rbind_inv in H as (e & H2 & H). apply rbind_inv in H as (e' & H3 & H).
        destruct e' as [|m]; [|done]. apply IH in H as [Hst H]. destruct e as [|m]; [|done]. split; [done|]. constructor; [|done]. split; [|done]. eauto.
      + intros [-> H]. apply Forall_cons in H as [[(rp & V & H1 & H2) H3] H]. rewrite H1. cbn [rbind]. rewrite H2. cbn [rbind]. rewrite H3. cbn [rbind]. apply IH. done.
  Qed.
  Lemma verify_loop_inr (pp : PolPP C) lp p is : forall st, verify_loop pp lp p is st <> Ret (inr nil_error).
  Proof.
    induction is as [|i is IH]; intros st; cbn [verify_loop]; [done|]. intros H. apply rbind_inv in H as ([rp V] & _ & H). apply rbind_inv in H as (e & _ & H). apply rbind_inv in H as (e' & _ & H).
    destruct e' as [|m]; [|done]. by apply IH in H.
  Qed.
  Lemma verify_args_inv (lp : LiabilityProof C) p i rp V : (i < length p)%nat -> verify_args lp p i = Ret (rp, V) <->
    lp_RangeProofs lp !! i = Some rp /\ lp_V lp !! i = Some V /\ ((i < length p - 1)%nat -> is_Some (lp_V lp !! (i + 1)%nat)).
  Proof.
    intros Hi. unfold verify_args. split.
    - intros H. apply rbind_inv in H as (x & H0 & H). apply rbind_inv in H as (rp' & H1 & H). apply rbind_inv in H as (V' & H2 & H). injection H as -> ->.
      apply idx_inv in H1, H2. split; [done|]. split; [done|]. intros Hlt. rewrite (proj2 (Nat.ltb_lt _ _) Hlt) in H0. apply rbind_inv in H0 as (? & _ & H0). apply idx_inv in H0. eauto.
    - intros (H1 & H2 & H3). destruct (Nat.ltb_spec i (length p - 1)) as [Hlt|Hge].
      + destruct (H3 Hlt) as [y Hy]. unfold idx. rewrite H1, H2, Hy. done.
      + unfold idx. rewrite H1, H2. done.
  Qed.
  Lemma check_inner (lp : LiabilityProof C) i Vi Wi : (1 <= i)%nat -> lp_V lp !! i = Some Vi -> lp_W lp !! i = Some Wi ->
    checkCommitmentToInnerVertex lp i = Ret nil_error <-> lp_Digests lp !! (i - 1)%nat = Some (hash_scalar [Vi; Wi]).
  Proof.
    intros Hi HV HW. unfold checkCommitmentToInnerVertex, hash_scalar. unfold idx at 1 2. rewrite HV, HW. cbn [rbind]. rewrite fe_sha. cbn [rbind fmap list_fmap concat]. rewrite app_nil_r.
    unfold idxZ. destruct (Z.ltb_spec (Z.of_nat i - 1) 0); [lia|]. replace (Z.to_nat _) with (i - 1)%nat by lia. unfold idx. destruct (lp_Digests lp !! (i - 1)%nat) as [d|]; [|done]. cbn [rbind].
    destruct (zeqb _ _) eqn:E; [apply zeqb_eq in E; subst d; done|]. split; [done|]. intros [= ->]. rewrite (proj2 (zeqb_eq _ _) Logic.eq_refl) in E. done.
  Qed.
  Lemma check_leaf (lp : LiabilityProof C) i Vi : (1 <= i)%nat -> lp_V lp !! i = Some Vi ->
    checkCommitmentToLeafVertex lp i = Ret nil_error <-> lp_Digests lp !! (i - 1)%nat = Some (hash_scalar [Vi]).
  Proof.
    intros Hi HV. unfold checkCommitmentToLeafVertex, hash_scalar. unfold idx at 1. rewrite HV. cbn [rbind]. rewrite fe_sha. cbn [rbind fmap list_fmap concat]. rewrite app_nil_r.
    unfold idxZ. destruct (Z.ltb_spec (Z.of_nat i - 1) 0); [lia|]. replace (Z.to_nat _) with (i - 1)%nat by lia. unfold idx. destruct (lp_Digests lp !! (i - 1)%nat) as [d|]; [|done]. cbn [rbind].
    destruct (zeqb _ _) eqn:E; [apply zeqb_eq in E; subst d; done|]. split; [done|]. intros [= ->]. rewrite (proj2 (zeqb_eq _ _) Logic.eq_refl) in E. done.
  Qed.
  Lemma verify_header_accept (lp : LiabilityProof C) p V W : verify_header lp p V W = Ret nil_error <->
    (length (lp_W lp) + 1)%nat = length p /\ length (lp_Digests lp) = length p /\ lp_V lp !! 0%nat = Some V /\ lp_W lp !! 0%nat = Some W.
  Proof.
    unfold verify_header. destruct (Z.eqb_spec (Z.of_nat (length (lp_W lp))) (Z.of_nat (length p) - 1)) as [E1|E1]; [|split; [done|intros; lia]].
    destruct (Nat.eqb_spec (length (lp_Digests lp)) (length p)) as [E2|E2]; [|split; [done|intros; lia]]. cbn [andb].
    unfold idx. destruct (lp_V lp !! 0%nat) as [V0|]; [|split; [done|intros (_ & _ & [=] & _)]]. cbn [rbind].
    destruct (geqb V0 V) eqn:EV.
    - apply geqb_eq in EV as ->. destruct (lp_W lp !! 0%nat) as [W0|]; [|split; [done|intros (_ & _ & _ & [=])]]. cbn [rbind]. destruct (geqb W0 W) eqn:EW.
      + apply geqb_eq in EW as ->. split; [|done]. intros _. split; [lia|done].
      + split; [done|]. intros (_ & _ & _ & [= ->]). rewrite (proj2 (geqb_eq _ _ _) Logic.eq_refl) in EW. done.
    - split; [done|]. intros (_ & _ & [= ->] & _). rewrite (proj2 (geqb_eq _ _ _) Logic.eq_refl) in EV. done.
  Qed.
  Lemma verify_equalities_spec (pp : PolPP C) lp p e : (1 <= length p)%nat -> verify_equalities pp lp p = Ret e <->
    (length p <= length (lp_V lp) \/ length p = 1)%nat /\ exists zc m, Commit (po_PPPP pp) (zeros (po_Fanout pp + 2)) = Ret zc /\ pad_to_pow2 (length p - 1) = Ret m /\ e = path_equalities pp zc m p (lp_V lp).
  Proof.
    intros Hp. unfold verify_equalities. split.
    - intros H. apply rbind_inv in H as (V & H1 & H). apply rbind_inv in H as (W & H2 & H). apply rbind_inv in H as (zc & H3 & H). apply rbind_inv in H as (m & H4 & H). injection H as <-.
      apply (mapM_idx_take _ (lp_V lp) 1) in H2 as [H2 ->]; [|done]. apply (mapM_idx_take _ (lp_V lp) 0) in H1 as [H1 ->]; [|intros; f_equal; lia].
      split; [lia|]. exists zc, m. done.
    - intros (Hl & zc & m & H3 & H4 & ->).
      rewrite (proj2 (mapM_idx_take (fun i => idx (lp_V lp) i) (lp_V lp) 0 (length p - 1) (take (length p - 1) (lp_V lp)) ltac:(intros; f_equal; lia)) ltac:(split; [lia|done])). cbn [rbind].
      rewrite (proj2 (mapM_idx_take _ (lp_V lp) 1 (length p - 1) (take (length p - 1) (drop 1 (lp_V lp))) ltac:(done)) ltac:(split; [lia|done])). cbn [rbind].
      unfold zeros in H3. change (IntToZr 0) with (zr 0). change (zr 0) with 0. rewrite H3. cbn [rbind]. rewrite H4. done.
  Qed.

  Lemma accept_iff (pp : PolPP C) lp id V W id2path : LiabilityProof_Verify lp pp id V W id2path = Ret nil_error <-> exists p, id2path id = Ret p /\ accepted pp p V W lp.
  Proof.
    unfold LiabilityProof_Verify. destruct (id2path id) as [p| |] eqn:Ep; cbn [rbind]; [|split; [done|intros (? & [=] & _)]..].
    split.
    - intros H. exists p. split; [done|]. apply rbind_inv in H as (e & H1 & H). destruct e; [|done]. apply rbind_inv in H as (rr & H2 & H). destruct rr as [st|e]; [|injection H as ->; by apply verify_loop_inr in H2].
      apply rbind_inv in H as (e & H3 & H). destruct e; [|done]. destruct st; [|done].
      apply verify_header_accept in H1 as (A1 & A2 & A3 & A4). apply verify_loop_accept in H2 as [_ H2]. rewrite Forall_forall in H2.
      assert (Hn : (2 <= length p)%nat) by (apply lookup_lt_Some in A4; lia).
      assert (Hloop : forall i, (i < length p)%nat -> (exists rp V, verify_args lp p i = Ret (rp, V) /\ VerifyRange (po_RPPP pp) rp V = Ret nil_error) /\ verify_digest lp p i = Ret nil_error).
      { intros i Hi. apply H2. apply elem_of_seq. lia. }
      unfold verify_arguments in H3. apply rbind_inv in H3 as (e & B1 & H3). destruct e; [|done]. apply rbind_inv in H3 as (e & B2 & H3). destruct e; [|done].
      apply rbind_inv in H3 as (eqs & B3 & H3). apply rbind_inv in H3 as (e & B4 & H3). destruct e; [|done]. clear H3.
      unfold verify_liability in H. apply rbind_inv in H as (Vn & D1 & H). apply rbind_inv in H as (i & D2 & H). apply rbind_inv in H as (e & D3 & H). destruct e; [|done]. clear H.
      apply idx_last_inv in D1, D2. apply verify_equalities_spec in B3 as (_ & zc & m & Hz & Hm & ->); [|lia].
      constructor; try done.
      + intros i' Hi. destruct (Hloop i' Hi) as [(rp & Vi & Ha & Hr) _]. apply verify_args_inv in Ha as (Ha1 & Ha2 & _); [|done]. eauto.
      + intros i' Vi Wi Hi HVi HWi. destruct (Hloop i' ltac:(lia)) as [_ Hd]. unfold verify_digest in Hd. rewrite (proj2 (Nat.eqb_neq _ _)) in Hd by lia. rewrite (proj2 (Nat.ltb_lt _ _)) in Hd by lia.
        apply (check_inner lp i' Vi Wi); [lia|done..].
      + intros Vi HVi. destruct (Hloop (length p - 1)%nat ltac:(lia)) as [_ Hd]. unfold verify_digest in Hd. rewrite (proj2 (Nat.eqb_eq _ _)) in Hd by lia.
        replace (length p - 2)%nat with (length p - 1 - 1)%nat by lia. apply (check_leaf lp _ Vi); [lia|done..].
      + exists zc, m. done.
      + exists Vn, i. done.
    - intros (p' & [= <-] & [A1 A2 A3 A4 A5 A6 A7 A8 A9 A10 A11]).
      assert (Hn : (2 <= length p)%nat) by (apply lookup_lt_Some in A4; lia).
      rewrite (proj2 (verify_header_accept lp p V W)) by done. cbn [rbind].
      assert (HV : forall i, (i < length p)%nat -> is_Some (lp_V lp !! i)) by (intros i Hi; destruct (A5 i Hi) as (rp & Vi & _ & -> & _); done).
      rewrite (proj2 (verify_loop_accept pp lp p (seq 0 (length p)) nil_error)).
      2: { split; [done|]. apply Forall_forall. intros i Hi. apply elem_of_seq in Hi. destruct (A5 i ltac:(lia)) as (rp & Vi & R1 & R2 & R3). split.
           - exists rp, Vi. split; [|done]. apply verify_args_inv; [lia|]. split; [done|]. split; [done|]. intros. apply HV. lia.
           - unfold verify_digest. destruct (Nat.eqb_spec i (length p - 1)) as [->|Hne].
             + apply (check_leaf lp _ Vi); [lia|done|]. replace (length p - 1 - 1)%nat with (length p - 2)%nat by lia. by apply A7.
             + destruct (Nat.ltb_spec 0 i); [|done]. destruct (lookup_lt_is_Some_2 (lp_W lp) i ltac:(lia)) as [Wi HWi]. apply (check_inner lp i Vi Wi); [lia|done|done|]. apply A6; [lia|done..]. }
      cbn [rbind]. unfold verify_arguments. rewrite A8. cbn [rbind]. rewrite A9. cbn [rbind]. destruct A10 as (zc & m & Z1 & Z2 & Z3).
      rewrite (proj2 (verify_equalities_spec pp lp p (path_equalities pp zc m p (lp_V lp)) ltac:(lia))).
      2: { split; [|exists zc, m; done]. left. destruct (HV (length p - 1)%nat ltac:(lia)) as [x Hx]. apply lookup_lt_Some in Hx. lia. }
      cbn [rbind]. rewrite Z3. cbn [rbind]. destruct A11 as (Vn & i & L1 & L2 & L3). unfold verify_liability. apply idx_last_inv in L1, L2. rewrite L1. cbn [rbind]. rewrite L2. cbn [rbind]. unfold IntToZr. rewrite L3. done.
  Qed.
End Accept.

Theorem C55_acceptance (C : Curve) (pp : PolPP C) lp id V W id2path :
  LiabilityProof_Verify lp pp id V W id2path = Ret nil_error <-> exists p, id2path id = Ret p /\ accepted pp p V W lp.
Proof. apply accept_iff. Qed.
Print Assumptions C55_acceptance.
