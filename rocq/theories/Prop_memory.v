(** Property C91: the functions of the library on points as Go has them, pointers to objects that Add and Sub overwrite.  They
    compute what the value-level model says, and they leave every object alone that existed before, except that pp.Update
    overwrites the commitment it is given and the verifiers overwrite the claim (fields P and C) of the inner-product proofs
    inside the proof they are given. *)
From Verif Require Import Mem_pol Prop_accept Prop_liability Toy.
Local Open Scope Zr_scope.

(** ** Specification *)
Section Spec.
  Context {C : Curve}.
  Local Notation mem := (mem C).
  Local Notation M := (M C).
  (** Between h and h', every point that existed keeps its value; every inner-product proof that existed and is not in S is
      unchanged; one in S is unchanged but for P and C; and the only assignments made are to new objects and to proofs in S (so
      no goroutine that uses the other objects at the same time races with the call). *)
  Definition leaves_alone (S : list iloc) (h h' : mem) : Prop :=
    (forall l v, mpts h !! l = Some v -> mpts h' !! l = Some v) /\
    (forall i o, mipps h !! i = Some o -> i ∉ S -> mipps h' !! i = Some o) /\
    (forall i o, mipps h !! i = Some o -> exists P c, mipps h' !! i = Some (MkObj (io_LRs o) (io_a o) (io_b o) P c)) /\
    (exists w, mwrites h' = w ++ mwrites h /\ forall e, e ∈ w ->
       match e with WPoint l => (length (mpts h) <= l)%nat | WProof i => i ∈ S \/ (length (mipps h) <= i)%nat end).
  (** The computation m on the memory h does what r says: it panics or hangs as r does; if r is a value, m returns something
      that stands for this value (R), having left everything alone outside S. *)
  Definition does {A B} (m : M A) (h : mem) (r : res B) (S : list iloc) (R : mem -> A -> B -> Prop) : Prop :=
    match r with
    | Ret b => exists a h', m h = Ret (a, h') /\ leaves_alone S h h' /\ R h' a b
    | Panic => m h = Panic
    | Hang => m h = Hang
    end.
  (** The result is the same. *)
  Definition same {A} : mem -> A -> A -> Prop := fun _ a b => a = b.
  (** The result is a pointer, a slice of pointers to such points. *)
  Definition point : mem -> loc -> G1 C -> Prop := fun h l v => mpts h !! l = Some v.
  Definition points : mem -> list loc -> list (G1 C) -> Prop := fun h ls vs => Forall2 (fun l v => mpts h !! l = Some v) ls vs.
  (** The shared objects of the packages (common/math.go:20,23-26 and c.GenG1) are what they should be. *)
  Definition sane (h : mem) : Prop := mpts h !! zeroG1 = Some gzero /\ mpts h !! GenG1 = Some (gen1 C).
  (** The inner-product proof i is not among those that existed in h. *)
  Definition own (h : mem) (i : iloc) : Prop := (length (mipps h) <= i)%nat.
End Spec.

Section Proofs.
  Context {C : Curve}.
  Local Notation mem := (mem C).
  Local Notation M := (M C).
  Lemma ext_leaves_alone S (h h' : mem) : ext S h h' <-> leaves_alone S h h'.
  Proof.
    split.
    - intros [E1 E2 (w & W & F)]. split_and!.
      + intros l v H. eapply prefix_lookup; eassumption.
      + intros i o H N. destruct (E2 i o H) as (o' & H' & _ & _ & _ & X). rewrite H'. f_equal. auto.
      + intros i o H. destruct (E2 i o H) as ([L a b P c] & H' & X1 & X2 & X3 & _). cbn in X1, X2, X3. subst. exists P, c. exact H'.
      + exists w. split; [exact W|]. rewrite Forall_forall in F. intros e He. apply (F e He).
    - intros (H1 & H2 & H3 & w & W & F). split.
      + exists (drop (length (mpts h)) (mpts h')). rewrite <- (take_drop (length (mpts h)) (mpts h')) at 1. f_equal.
        apply list_eq. intros l. destruct (decide (l < length (mpts h))%nat) as [L|L].
        * rewrite lookup_take by exact L. destruct (lookup_lt_is_Some_2 _ _ L) as [v Hv]. rewrite Hv. apply H1. exact Hv.
        * rewrite lookup_take_ge by lia. symmetry. apply lookup_ge_None. lia.
      + intros i o H. destruct (H3 i o H) as (P & c & H'). exists (MkObj (io_LRs o) (io_a o) (io_b o) P c). split_and!; try reflexivity; [exact H'|].
        intros N. specialize (H2 i o H N). rewrite H2 in H'. congruence.
      + exists w. split; [exact W|]. apply Forall_forall. intros e He. apply (F e He).
  Qed.
  Lemma runs_does {A B} (m : M A) h (r : res B) S (R : mem -> A -> B -> Prop) (Φ : A -> mem -> B -> Prop) :
    runs m h r Φ -> (forall a h' b, Φ a h' b -> ext S h h' /\ R h' a b) -> does m h r S R.
  Proof.
    unfold runs, does. destruct r as [b| |]; auto. intros (a & h' & E & H) HΦ. exists a, h'. destruct (HΦ _ _ _ H) as [X Y].
    split; [exact E|]. split; [apply ext_leaves_alone; exact X|exact Y].
  Qed.
  Lemma same_mem S (h : mem) : ext S h h.
  Proof. apply ext_refl. Qed.
End Proofs.
Ltac fromruns L := eapply runs_does; [eapply L; eassumption|]; cbn beta; intros; destruct_and?; subst; split; [auto using ext_refl|cbv [same point points own]; eauto].
Ltac fromacc L := eapply runs_does; [eapply L; eassumption|]; cbn beta; intros ? ? ? A;
  split; [eapply acc_e; exact A|eapply acc_v; exact A].

(** ** C91 *)
Section C91.
  Context (C : Curve).
  Local Notation mem := (mem C).

  (** *** Vectors of points *)
  (** G1v.Add, HadamardProd, Neg, Mul, MulV, Sum and Duplicate and Vec.Exp leave their operands alone
      (common/math.go:244-253, 281-351, 361-371). *)
  Theorem C91_vectors (h : mem) ls vs ls' vs' (x : Zr) (xs : list Zr) (n : nat) : sane h -> points h ls vs -> points h ls' vs' ->
    does (m_G1v_Add ls ls') h (G1v_Add vs vs') [] points /\
    does (m_HadamardProd ls ls') h (G1v_HadamardProd vs vs') [] points /\
    does (m_Neg ls) h (Ret (G1v_Neg vs)) [] points /\
    does (m_Mul ls x) h (Ret (G1v_Mul vs x)) [] points /\
    does (m_MulV ls xs) h (G1v_MulV vs xs) [] points /\
    does (m_Sum ls) h (G1v_Sum vs) [] point /\
    does (m_Duplicate ls n) h (G1v_Duplicate vs n) [] points /\
    does (m_Exp xs ls) h (Vec_Exp xs vs) [] point.
  Proof.
    intros [Z G] H H'. split_and!.
    - fromruns @runs_G1v_Add.
    - fromruns @runs_HadamardProd.
    - fromruns @runs_Neg.
    - fromruns @runs_G1v_Mul.
    - fromruns @runs_MulV.
    - fromacc @runs_Sum.
    - fromruns @runs_Duplicate.
    - fromacc @runs_Exp.
  Qed.
  (** The result of MulV is not all new: for a scalar 0 it holds the pointer to the neutral element that all callers share
      (common/math.go:333).  A caller that added to such an entry in place would change the results of all later calls: *)
  Theorem C91_shared_zero (h : mem) l v : sane h -> (2 <= l)%nat -> point h l v -> v <> gzero ->
    m_MulV [l] [zr 0] h = Ret ([zeroG1], h) /\
    exists h', p_Add zeroG1 l h = Ret (tt, h') /\ m_MulV [l] [zr 0] h' = Ret ([zeroG1], h') /\ point h' zeroG1 v /\ ~ sane h'.
  Proof.
    intros [Z G] L H N.
    assert (forall h : mem, m_MulV [l] [zr 0] h = Ret ([zeroG1], h)) as HM.
    { intros h0. unfold m_MulV. cbn [length Nat.eqb m_mulv_loop]. rewrite (bool_decide_eq_true_2 (zr 0 = zr 0)) || idtac.
      assert (zeqb (zr 0) (zr 0) = true) as -> by (apply zeqb_eq; reflexivity). reflexivity. }
    split; [apply HM|]. pose proof (Add_run h zeroG1 gzero l v Z H) as E. rewrite gadd_0_l in E.
    eexists. split; [exact E|]. split; [apply HM|].
    assert (point (MkMem (<[zeroG1:=v]> (mpts h)) (mipps h) (WPoint zeroG1 :: mwrites h)) zeroG1 v) as P.
    { apply list_lookup_insert. eapply lookup_lt_Some. exact Z. }
    split; [exact P|]. intros [Z' _]. unfold point in P. rewrite P in Z'. congruence.
  Qed.

  (** *** Verification *)
  (** InnerProductProof.Verify (bp/innerprod.go:134-163) *)
  Theorem C91_inner_product_verify (h : mem) i pf p q : whole h i pf -> rel_bp h p q ->
    does (m_IPP_Verify i p) h (IPP_Verify pf q) [] same.
  Proof. intros. fromruns @runs_IPP_Verify. Qed.
  (** bp.VerifyRange (bp/range.go:81-160) *)
  Theorem C91_range_verify (h : mem) p q rp rq V Vv : sane h -> rel_rppp h p q -> rel_rp h rp rq -> point h V Vv ->
    does (m_VerifyRange p rp V) h (VerifyRange q rq Vv) [mq_Π rp] same.
  Proof. intros [Z G] ? ? ?. fromruns @runs_VerifyRange. Qed.
  (** pp.Verify, pp.VerifyAggregation (pp/pointproofs.go:116-125, 147-168) *)
  Theorem C91_point_verify (h : mem) p q mi π πv Cm Cmv i is cs csv Σ : rel_pp h p q -> point h π πv -> point h Cm Cmv -> points h cs csv ->
    does (m_pp_Verify p mi π Cm i) h (Verify q mi πv Cmv i) [] same /\
    does (m_VerifyAggregation p is cs π Σ) h (VerifyAggregation q is csv πv Σ RO) [] same.
  Proof. intros. split; [fromruns @runs_pp_Verify|fromruns @runs_VerifyAggregation]. Qed.
  (** Proof.Verify, Proof.VerifyAggregated (sum/sa.go:109-116, 185-204) *)
  Theorem C91_sum_verify (h : mem) p q pf pfv V Vv Vs Vsv : sane h -> rel_sum h p q -> rel_sp h pf pfv -> point h V Vv -> points h Vs Vsv ->
    does (m_sum_Verify pf p V) h (sum_Verify pfv q Vv) [mt_π pf] same /\
    does (m_VerifyAggregated pf p Vs) h (sum_VerifyAggregated pfv q Vsv) [mt_π pf] same.
  Proof. intros [Z G] ? ? ? ?. split; [fromruns @runs_sum_Verify|fromruns @runs_VerifyAggregated]. Qed.
  (** Equality.Verify, Equalities.Verify (poe/poe.go:71-127, 308-341) *)
  Theorem C91_equality_verify (h : mem) e ev Υ Υv es esv pf pfv : sane h -> rel_eq h e ev -> rel_ep h Υ Υv -> rel_eqs h es esv -> rel_ap h pf pfv ->
    does (m_Equality_Verify e Υ) h (Equality_Verify ev Υv) [] same /\
    does (m_Equalities_Verify es pf) h (Equalities_Verify esv pfv) [mh_IPP pf] same.
  Proof. intros [Z G] ? ? ? ?. split; [fromruns @runs_Equality_Verify|fromruns @runs_Equalities_Verify]. Qed.
  (** TotalProof.Verify, LiabilityProof.Verify (pol/pol.go:124-233, 274-277) *)
  Theorem C91_liability_verify (h : mem) p q tp tpv lp lpv id V Vv W Wv id2path : sane h -> rel_pol h p q -> rel_tp h tp tpv -> rel_lp h lp lpv ->
    point h V Vv -> point h W Wv ->
    does (m_TotalProof_Verify tp p V) h (TotalProof_Verify tpv q Vv) [] same /\
    does (m_LiabilityProof_Verify lp p id V W id2path) h (LiabilityProof_Verify lpv q id Vv Wv id2path) (ml_proofs lp) same.
  Proof. intros [Z G] ? ? ? ? ?. split; [fromruns @runs_TotalProof_Verify|fromruns @runs_LiabilityProof_Verify]. Qed.

  (** *** Commitments, openings and proofs *)
  (** Commit, Open, Aggregate (pp/pointproofs.go:79-114, 134-145), NewCommitment (sum/sa.go:118-135) *)
  Theorem C91_commitments (h : mem) p q sp sq m i cs csv πs πsv r : sane h -> rel_pp h p q -> rel_sum h sp sq -> points h cs csv -> points h πs πsv ->
    does (m_Commit p m) h (Commit q m) [] point /\
    does (m_Open p i m) h (Open q i m) [] (fun h' a b => a.1 = b.1 /\ point h' a.2 b.2) /\
    does (m_Aggregate p cs πs) h (Aggregate q csv πsv RO) [] point /\
    does (m_NewCommitment sp m r) h (sum_NewCommitment sq m r) [] point.
  Proof.
    intros [Z G] ? ? ? ?. split_and!; [fromruns @runs_Commit|fromruns @runs_Open|fromruns @runs_Aggregate|fromruns @runs_NewCommitment].
  Qed.
  (** Update (pp/pointproofs.go:127-132): the commitment changes, no other object does. *)
  Theorem C91_update (h : mem) p q Cm Cmv m mi i : rel_pp h p q -> point h Cm Cmv ->
    match Update q Cmv m mi i with
    | Ret v => exists h', m_Update p Cm m mi i h = Ret (tt, h') /\ point h' Cm v /\
        (forall l w, l <> Cm -> point h l w -> point h' l w) /\ mipps h' = mipps h /\
        exists ws, mwrites h' = ws ++ mwrites h /\ forall e, e ∈ ws -> e = WPoint Cm \/ exists l, e = WPoint l /\ (length (mpts h) <= l)%nat
    | Panic => m_Update p Cm m mi i h = Panic
    | Hang => m_Update p Cm m mi i h = Hang
    end.
  Proof.
    intros HP HC. pose proof (runs_Update h p q Cm Cmv m mi i HP HC) as R. unfold runs in R. destruct (Update q Cmv m mi i) as [v| |]; auto.
    destruct R as ([] & h' & E & V & H1 & H2 & ws & W & F). exists h'. split; [exact E|]. split; [exact V|]. split; [exact H1|]. split; [exact H2|].
    exists ws. split; [exact W|]. rewrite Forall_forall in F. exact F.
  Qed.
  (** NewInnerProdArgument with Prove (bp/innerprod.go:68-132, 167-253), ProveRange (bp/range.go:162-278), NewArgument and
      NewAggregatedArgument (sum/sa.go:70-88, 137-173), Equality.Prove and Equalities.Prove (poe/poe.go:131-236, 345-398): nothing that
      existed is changed, and the inner-product proof inside the new proof is an object of its own, so that verifying one proof
      does not disturb another. *)
  Theorem C91_proofs (h : mem) bp bq a b rp rq sp sq e ev es esv V Vv Vs Vsv v vs r rs w ws c (co : RangeCoins) u η ν coins r1 r2 :
    sane h -> rel_bp h bp bq -> rel_rppp h rp rq -> rel_sum h sp sq -> rel_eq h e ev -> rel_eqs h es esv -> point h V Vv -> points h Vs Vsv ->
    does (Model_mem.mbind (m_NewInnerProdArgument bp a b) m_IPA_Prove) h (let! ipa := NewInnerProdArgument bq a b in IPA_Prove ipa) []
      (fun h' i p => whole h' i p /\ own h i) /\
    does (m_ProveRange rp V v r co) h (ProveRange rq Vv v r co) [] (fun h' x y => rel_rp h' x y /\ whole h' (mq_Π x) (rp_Π y) /\ own h (mq_Π x)) /\
    does (m_NewArgument sp V v r w c) h (sum_NewArgument sq Vv v r w c) [] (fun h' x y => rel_sp h' x y /\ whole h' (mt_π x) (sm_π y) /\ own h (mt_π x)) /\
    does (m_NewAggregatedArgument sp Vs vs rs w c) h (sum_NewAggregatedArgument sq Vsv vs rs w c) []
      (fun h' x y => rel_sp h' x y /\ whole h' (mt_π x) (sm_π y) /\ own h (mt_π x)) /\
    does (m_Equality_Prove e v w u η ν) h (Equality_Prove ev v w u η ν) [] rel_ep /\
    does (m_Equalities_Prove es vs ws coins r1 r2) h (Equalities_Prove esv vs ws coins r1 r2) []
      (fun h' x y => rel_ap h' x y /\ whole h' (mh_IPP x) (ap_IPP y) /\ own h (mh_IPP x)).
  Proof.
    intros [Z G] ? ? ? ? ? ? ?. split_and!.
    - apply (runs_does _ _ _ _ _ (fun i h' p => ext [] h h' /\ whole h' i p /\ own h i)); [|auto].
      eapply runs_bind; [eapply runs_NewInnerProdArgument; eassumption|]. cbn beta. intros x hx y _ [Ex Hx].
      eapply runs_post; [eapply (runs_IPA_Prove hx x y); exact Hx|]. cbn beta. intros i hy p _ (Ey & L & Hw).
      pose proof (ext_ipps_length _ _ _ Ex) as Lx.
      split; [eapply ext_trans; eassumption|]. split; [exact Hw|unfold own; lia].
    - fromruns @runs_ProveRange.
    - fromruns @runs_NewArgument.
    - fromruns @runs_NewAggregatedArgument.
    - fromruns @runs_Equality_Prove.
    - fromruns @runs_Equalities_Prove.
  Qed.
  (** pol.GeneratePublicParams (pol/pol.go:64-101) *)
  Theorem C91_parameters (h : mem) f t α : sane h ->
    does (m_GeneratePublicParams f t α) h (GeneratePublicParams (C:=C) f t α) [] (fun h' a b => a.1 = b.1 /\ rel_pol h' a.2 b.2).
  Proof. intros [Z G]. fromruns @runs_GeneratePublicParams. Qed.

  (** *** Repetition and order *)
  (** What stands for a value goes on standing for it when it has been left alone; P and C of the inner-product proofs do not
      matter. *)
  Theorem C91_stays S (h h' : mem) : leaves_alone S h h' -> (sane h -> sane h') /\
    (forall l v, point h l v -> point h' l v) /\ (forall l v, points h l v -> points h' l v) /\
    (forall p q, rel_pol h p q -> rel_pol h' p q) /\ (forall p q, rel_lp h p q -> rel_lp h' p q) /\
    (forall p q, rel_rppp h p q -> rel_rppp h' p q) /\ (forall p q, rel_rp h p q -> rel_rp h' p q) /\
    (forall p q, rel_sum h p q -> rel_sum h' p q) /\ (forall p q, rel_sp h p q -> rel_sp h' p q) /\
    (forall p q, rel_pp h p q -> rel_pp h' p q) /\
    (forall p q, rel_eqs h p q -> rel_eqs h' p q) /\ (forall p q, rel_ap h p q -> rel_ap h' p q).
  Proof.
    intros E. apply ext_leaves_alone in E. split; [intros [? ?]; split; eapply val_ext; eassumption|].
    split_and!; intros; [eapply val_ext|eapply vals_ext|eapply rel_pol_ext|eapply rel_lp_ext|eapply rel_rppp_ext|eapply rel_rp_ext|
      eapply rel_sum_ext|eapply rel_sp_ext|eapply rel_pp_ext|eapply rel_eqs_ext|eapply rel_ap_ext]; eassumption.
  Qed.
  (** Proofs are verified one after the other with the same parameters; the list says which, it may name a proof any number of
      times and different proofs may share objects.  Every verdict is the one the proof gets on its own. *)
  Fixpoint verify_all (pp : mPolPP C) (id2path : string -> res path) (jobs : list (mLiabilityProof * string * loc * loc)) : M C (list error) :=
    match jobs with
    | [] => Model_mem.mret []
    | (lp, id, V, W) :: jobs => Model_mem.mbind (m_LiabilityProof_Verify lp pp id V W id2path) (fun e =>
        Model_mem.mbind (verify_all pp id2path jobs) (fun es => Model_mem.mret (e :: es)))
    end.
  Definition job (h : mem) (a : mLiabilityProof * string * loc * loc) (b : LiabilityProof C * string * G1 C * G1 C) : Prop :=
    rel_lp h a.1.1.1 b.1.1.1 /\ a.1.1.2 = b.1.1.2 /\ point h a.1.2 b.1.2 /\ point h a.2 b.2.
  Theorem C91_any_order (h : mem) p q id2path jobs jobsv : sane h -> rel_pol h p q -> Forall2 (job h) jobs jobsv ->
    does (verify_all p id2path jobs) h (mapM (fun b => LiabilityProof_Verify b.1.1.1 q b.1.1.2 b.1.2 b.2 id2path) jobsv)
      (concat ((fun a => ml_proofs a.1.1.1) <$> jobs)) same.
  Proof.
    intros S HP HJ. apply (runs_does _ _ _ _ _ (fun a h' b => ext (concat ((fun a => ml_proofs a.1.1.1) <$> jobs)) h h' /\ a = b)); [|auto].
    revert h S HP HJ. revert jobsv. induction jobs as [|[[[lp id] V] W] jobs IH]; intros jobsv h S HP HJ; inversion HJ as [|? b ? jobsv' H1 H2]; subst.
    - cbn [verify_all mapM]. apply runs_ret. split; [apply ext_refl|reflexivity].
    - destruct b as [[[lpv idv] Vv] Wv]. destruct H1 as (HL & Hid & HV & HW). cbn in HL, Hid, HV, HW. subst idv. cbn [verify_all mapM fmap list_fmap concat fst snd].
      destruct S as [Z G]. eapply runs_bind; [eapply runs_LiabilityProof_Verify; eassumption|]. cbn beta. intros e h1 e' _ [E ->].
      eapply runs_bind; [apply (IH jobsv')|].
      + split; eapply val_ext; eassumption.
      + eapply rel_pol_ext; eassumption.
      + eapply Forall2_impl; [exact H2|]. intros [[[? ?] ?] ?] [[[? ?] ?] ?] (X1 & X2 & X3 & X4). cbn in *.
        split_and!; [eapply rel_lp_ext; eassumption|exact X2|eapply val_ext; eassumption..].
      + cbn beta. intros es h2 es' _ [E2 ->]. apply runs_ret. split; [|reflexivity].
        eapply ext_trans; [eapply ext_weaken; [|exact E]|eapply ext_weaken; [|exact E2]]; set_solver.
  Qed.
  (** In particular, verifying again gives the same verdict. *)
  Corollary C91_again (h : mem) p q lp lpv id V Vv W Wv id2path e h' : sane h -> rel_pol h p q -> rel_lp h lp lpv -> point h V Vv -> point h W Wv ->
    m_LiabilityProof_Verify lp p id V W id2path h = Ret (e, h') -> exists h'', m_LiabilityProof_Verify lp p id V W id2path h' = Ret (e, h'').
  Proof.
    intros S HP HL HV HW H. pose proof (proj2 (C91_liability_verify h p q (MkMtp V 0) (MkTP Vv 0) lp lpv id V Vv W Wv id2path S HP (conj HV Logic.eq_refl) HL HV HW)) as D.
    unfold does in D. destruct (LiabilityProof_Verify lpv q id Vv Wv id2path) as [b| |] eqn:Eb; [|congruence..].
    destruct D as (a & h1 & E & L & X). cbv [same] in X. subst b. rewrite H in E. injection E as <- <-.
    destruct (C91_stays _ _ _ L) as (T1 & T2 & _ & T4 & T5 & _).
    pose proof (proj2 (C91_liability_verify h' p q (MkMtp V 0) (MkTP Vv 0) lp lpv id V Vv W Wv id2path (T1 S) (T4 _ _ HP) (conj (T2 _ _ HV) Logic.eq_refl) (T5 _ _ HL) (T2 _ _ HV) (T2 _ _ HW))) as D.
    rewrite Eb in D. destruct D as (a & h2 & E & _ & X). cbv [same] in X. subst a. exists h2. exact E.
  Qed.
  (** Two range proofs with different inner-product proofs can be verified at the same time: run from the same memory, the two
      calls assign to no common object, and each has the same verdict whatever the other has already assigned. *)
  Theorem C91_side_by_side (h : mem) p q rp1 rq1 V1 Vv1 rp2 rq2 V2 Vv2 e1 h1 e2 h2 : sane h -> rel_rppp h p q ->
    rel_rp h rp1 rq1 -> point h V1 Vv1 -> rel_rp h rp2 rq2 -> point h V2 Vv2 -> mq_Π rp1 <> mq_Π rp2 ->
    m_VerifyRange p rp1 V1 h = Ret (e1, h1) -> m_VerifyRange p rp2 V2 h = Ret (e2, h2) ->
    (exists w1 w2, mwrites h1 = w1 ++ mwrites h /\ mwrites h2 = w2 ++ mwrites h /\
      forall e, e ∈ w1 -> e ∈ w2 -> match e with WPoint l => (length (mpts h) <= l)%nat | WProof i => (length (mipps h) <= i)%nat end) /\
    (forall h', leaves_alone [mq_Π rp1] h h' -> exists h'', m_VerifyRange p rp2 V2 h' = Ret (e2, h'')) /\
    (forall h', leaves_alone [mq_Π rp2] h h' -> exists h'', m_VerifyRange p rp1 V1 h' = Ret (e1, h'')).
  Proof.
    intros S HP HR1 HV1 HR2 HV2 N E1 E2.
    assert (forall rp rq V Vv e hh, rel_rp h rp rq -> point h V Vv -> m_VerifyRange p rp V h = Ret (e, hh) ->
      leaves_alone [mq_Π rp] h hh /\ forall S' h', leaves_alone S' h h' -> exists h'', m_VerifyRange p rp V h' = Ret (e, h'')) as K.
    { intros rp rq V Vv e hh HR HV E. pose proof (C91_range_verify h p q rp rq V Vv S HP HR HV) as D. unfold does in D.
      destruct (VerifyRange q rq Vv) as [b| |] eqn:Eb; [|congruence..]. destruct D as (a & h3 & E' & L & X). cbv [same] in X. subst b.
      rewrite E in E'. injection E' as <- <-. split; [exact L|]. intros S' h' L'.
      destruct (C91_stays _ _ _ L') as (T1 & T2 & _ & _ & _ & T3 & T4 & _).
      pose proof (C91_range_verify h' p q rp rq V Vv (T1 S) (T3 _ _ HP) (T4 _ _ HR) (T2 _ _ HV)) as D. rewrite Eb in D.
      destruct D as (a & h4 & E' & _ & X). cbv [same] in X. subst a. exists h4. exact E'. }
    destruct (K _ _ _ _ _ _ HR1 HV1 E1) as [L1 K1]. destruct (K _ _ _ _ _ _ HR2 HV2 E2) as [L2 K2].
    split; [|split; intros; [eapply K2|eapply K1]; eassumption].
    destruct L1 as (_ & _ & _ & w1 & W1 & F1). destruct L2 as (_ & _ & _ & w2 & W2 & F2). exists w1, w2. split; [exact W1|]. split; [exact W2|].
    intros e He1 He2. specialize (F1 e He1). specialize (F2 e He2). destruct e as [l|i]; [exact F1|].
    destruct F1 as [F1|F1]; [|exact F1]. destruct F2 as [F2|F2]; [|exact F2]. exfalso. apply N.
    apply elem_of_list_singleton in F1, F2. congruence.
  Qed.
End C91.

(** *** New objects *)
(** The pointers ls are to pairwise different objects made between h and h'. *)
Definition new_in {C : Curve} (h h' : mem C) (ls : list loc) : Prop :=
  NoDup ls /\ forall l, l ∈ ls -> (length (mpts h) <= l < length (mpts h'))%nat.
Section New.
  Context {C : Curve}.
  Local Notation mem := (mem C).
  Local Notation M := (M C).
  Definition size (h : mem) : nat := length (mpts h).
  Lemma mbind_inv {A B} (m : M A) (k : A -> M B) h r : Model_mem.mbind m k h = Ret r -> exists a h1, m h = Ret (a, h1) /\ k a h1 = Ret r.
  Proof. unfold Model_mem.mbind. destruct (m h) as [[a h1]| |]; [|discriminate..]. eauto. Qed.
  Lemma mlift_inv {A} (r : res A) (h : mem) a h' : Model_mem.mlift r h = Ret (a, h') -> h' = h.
  Proof. unfold Model_mem.mlift. destruct r; [|discriminate..]. congruence. Qed.
  Lemma deref_inv l (h : mem) v h' : deref l h = Ret (v, h') -> h' = h.
  Proof. unfold deref. destruct (mpts h !! l); [|discriminate]. congruence. Qed.
  Lemma alloc_inv v (h : mem) l h' : alloc v h = Ret (l, h') -> l = size h /\ size h' = S (size h).
  Proof. unfold alloc. intros [= <- <-]. unfold size. cbn. rewrite app_length. cbn. lia. Qed.
  Lemma p_Mul_inv l x (h : mem) r h' : p_Mul l x h = Ret (r, h') -> r = size h /\ size h' = S (size h).
  Proof. unfold p_Mul. intros H. apply mbind_inv in H as (v & h1 & H1 & H2). apply deref_inv in H1 as ->. eapply alloc_inv. exact H2. Qed.
  Lemma p_Copy_inv l (h : mem) r h' : p_Copy l h = Ret (r, h') -> r = size h /\ size h' = S (size h).
  Proof. unfold p_Copy. intros H. apply mbind_inv in H as (v & h1 & H1 & H2). apply deref_inv in H1 as ->. eapply alloc_inv. exact H2. Qed.
  Lemma store_inv l v (h : mem) u h' : store l v h = Ret (u, h') -> size h' = size h.
  Proof. unfold store. destruct (mpts h !! l); [|discriminate]. intros [= _ <-]. unfold size. cbn. apply insert_length. Qed.
  Lemma p_Add_inv l l' (h : mem) u h' : p_Add l l' h = Ret (u, h') -> size h' = size h.
  Proof.
    unfold p_Add. intros H. apply mbind_inv in H as (v & h1 & H1 & H2). apply deref_inv in H1 as ->.
    apply mbind_inv in H2 as (v' & h1 & H1 & H2). apply deref_inv in H1 as ->. eapply store_inv. exact H2.
  Qed.
  Lemma p_Sub_inv l l' (h : mem) u h' : p_Sub l l' h = Ret (u, h') -> size h' = size h.
  Proof.
    unfold p_Sub. intros H. apply mbind_inv in H as (v & h1 & H1 & H2). apply deref_inv in H1 as ->.
    apply mbind_inv in H2 as (v' & h1 & H1 & H2). apply deref_inv in H1 as ->. eapply store_inv. exact H2.
  Qed.
  Lemma mret_inv {A} (a : A) (h : mem) a' h' : Model_mem.mret a h = Ret (a', h') -> a' = a /\ h' = h.
  Proof. unfold Model_mem.mret. intros [= <- <-]. auto. Qed.
  Ltac iv H := repeat match type of H with
    | Model_mem.mbind _ _ _ = Ret _ => let x := fresh "x" in let hx := fresh "hx" in let Hx := fresh "Hx" in
        apply mbind_inv in H as (x & hx & Hx & H);
        first [apply p_Mul_inv in Hx as [? ?]|apply p_Copy_inv in Hx as [? ?]|apply p_Add_inv in Hx|apply p_Sub_inv in Hx|apply mlift_inv in Hx as ->|idtac]
    | Model_mem.mret _ _ = Ret _ => apply mret_inv in H as [-> ->]
    end.
  Definition spans (a b : nat) (ls : list loc) : Prop := NoDup ls /\ forall l, l ∈ ls -> (a <= l < b)%nat.
  Lemma spans_nil a b : spans a b [].
  Proof. split; [constructor|]. intros l H. by apply elem_of_nil in H. Qed.
  Lemma spans_cons a b c l ls : (a <= l < b)%nat -> spans b c ls -> (b <= c)%nat -> spans a c (l :: ls).
  Proof.
    intros Hl [N F] Hb. split.
    - constructor; [|exact N]. intros H. apply F in H. lia.
    - intros l' [->|H]%elem_of_cons; [lia|]. apply F in H. lia.
  Qed.
  Lemma Mul_spans ls x (h : mem) r h' : m_Mul ls x h = Ret (r, h') -> spans (size h) (size h') r /\ (size h <= size h')%nat.
  Proof.
    revert h r h'. induction ls as [|l ls IH]; intros h r h' H; cbn [m_Mul] in H; iv H; [split; [apply spans_nil|lia]|].
    apply IH in Hx as [S1 S2]. split; [|lia]. eapply spans_cons; [|exact S1|]; lia.
  Qed.
  Lemma Add_spans ls ls' (h : mem) r h' : m_G1v_Add ls ls' h = Ret (r, h') -> spans (size h) (size h') r /\ (size h <= size h')%nat.
  Proof.
    revert ls' h r h'. induction ls as [|l ls IH]; intros ls' h r h' H; cbn [m_G1v_Add] in H; iv H; [split; [apply spans_nil|lia]|].
    destruct ls' as [|l' ls']; [discriminate|]. iv H.
    apply IH in Hx0 as [S1 S2]. split; [|lia]. eapply spans_cons; [|exact S1|]; lia.
  Qed.
  Lemma neg_spans z ls (h : mem) r h' : m_neg_loop z ls h = Ret (r, h') -> spans (size h) (size h') r /\ (size h <= size h')%nat.
  Proof.
    revert h r h'. induction ls as [|l ls IH]; intros h r h' H; cbn [m_neg_loop] in H; iv H; [split; [apply spans_nil|lia]|].
    apply IH in Hx0 as [S1 S2]. split; [|lia]. eapply spans_cons; [|exact S1|]; lia.
  Qed.
  Lemma dup_spans l n (h : mem) r h' : m_dup_loop l n h = Ret (r, h') -> spans (size h) (size h') r /\ (size h <= size h')%nat.
  Proof.
    revert h r h'. induction n as [|n IH]; intros h r h' H; cbn [m_dup_loop] in H; iv H; [split; [apply spans_nil|lia]|].
    apply IH in Hx as [S1 S2]. split; [|lia]. eapply spans_cons; [|exact S1|]; lia.
  Qed.
  (** The entries of MulV for scalars other than 0 *)
  Lemma mulv_spans ls xs (h : mem) r h' : m_mulv_loop ls xs h = Ret (r, h') -> (size h <= size h')%nat /\
    spans (size h) (size h') ((zip r xs) ≫= (fun lx => if zeqb lx.2 (zr 0) then [] else [lx.1])) /\
    forall i l, r !! i = Some l -> xs !! i = Some (zr 0) -> l = zeroG1.
  Proof.
    revert xs h r h'. induction ls as [|l ls IH]; intros xs h r h' H; cbn [m_mulv_loop] in H; [iv H; split; [lia|]; split; [apply spans_nil|intros ? ? X; discriminate X]|].
    destruct xs as [|x xs]; [iv H; split; [lia|]; split; [apply spans_nil|intros ? ? X; discriminate X]|].
    apply mbind_inv in H as (y & h1 & H1 & H). iv H. apply IH in Hx as (S2 & S1 & S3).
    change (zip (y :: x0) (x :: xs)) with ((y, x) :: zip x0 xs). cbn [mbind list_bind fst snd].
    destruct (zeqb x (zr 0)) eqn:E.
    - iv H1. split; [lia|]. split; [exact S1|]. intros [|i] l' Hl Hi; [injection Hl; auto|]. eapply S3; eassumption.
    - apply p_Mul_inv in H1 as [-> Hs]. split; [lia|]. split; [cbn [app]; eapply spans_cons; [|exact S1|]; lia|].
      intros [|i] l' Hl Hi; [injection Hi as ->; exfalso; assert (zeqb (zr 0) (zr 0) = true) as X by (apply zeqb_eq; reflexivity); congruence|]. eapply S3; eassumption.
  Qed.
  Lemma sum_loop_size X ls (h : mem) u h' : m_sum_loop X ls h = Ret (u, h') -> size h' = size h.
  Proof.
    revert h u h'. induction ls as [|l ls IH]; intros h u h' H; cbn [m_sum_loop] in H; [iv H; reflexivity|].
    apply mbind_inv in H as (b & h1 & H1 & H). unfold p_IsInfinity in H1. apply mbind_inv in H1 as (v & h2 & H1 & H2). apply deref_inv in H1 as ->. iv H2.
    apply mbind_inv in H as (w & h2 & H1 & H). apply IH in H. rewrite H. destruct (geqb v gzero); [iv H1; reflexivity|eapply p_Add_inv; exact H1].
  Qed.
  Lemma Sum_new ls (h : mem) r h' : m_Sum ls h = Ret (r, h') -> r = size h /\ size h' = S (size h).
  Proof. destruct ls as [|l ls]; [discriminate|]. cbn [m_Sum]. intros H. iv H. apply sum_loop_size in Hx. lia. Qed.
  Lemma exp_loop_size X xs ls (h : mem) u h' : m_exp_loop X xs ls h = Ret (u, h') -> (size h <= size h')%nat.
  Proof.
    revert ls h u h'. induction xs as [|x xs IH]; intros ls h u h' H; cbn [m_exp_loop] in H; [iv H; lia|].
    destruct ls as [|l ls]; [iv H; lia|]. iv H. apply IH in H. lia.
  Qed.
  Lemma Exp_new xs ls (h : mem) r h' : m_Exp xs ls h = Ret (r, h') -> r = size h /\ (size h < size h')%nat.
  Proof.
    unfold m_Exp. destruct (length xs =? length ls)%nat; [|discriminate]. destruct xs as [|x xs]; [discriminate|]. destruct ls as [|l ls]; [discriminate|].
    intros H. iv H. apply exp_loop_size in Hx. lia.
  Qed.
  Lemma MulV_size ls xs (h : mem) r h' : m_MulV ls xs h = Ret (r, h') -> (size h <= size h')%nat.
  Proof. unfold m_MulV. destruct (length ls =? length xs)%nat; [|discriminate]. intros H. apply mulv_spans in H. lia. Qed.
  Lemma one (h h' : mem) l : (size h <= l < size h')%nat -> new_in h h' [l].
  Proof. intros H. split; [apply NoDup_singleton|]. intros ? ->%elem_of_list_singleton. exact H. Qed.
  Lemma mmapM_size {A B} (f : A -> M B) l (h : mem) r h' : (forall a h r h', f a h = Ret (r, h') -> (size h <= size h')%nat) ->
    mmapM f l h = Ret (r, h') -> (size h <= size h')%nat.
  Proof.
    intros Hf. revert h r h'. induction l as [|a l IH]; intros h r h' H; cbn [mmapM] in H; iv H; [lia|]. apply Hf in Hx. apply IH in Hx0. lia.
  Qed.
End New.
(** The points returned by these functions are new objects, except for the entries of MulV for the scalar 0.  So what a caller
    does in place to one of them (as pp.Update does to a commitment) affects nothing else. *)
Theorem C91_new (C : Curve) (h h' : mem C) ls ls' r r1 (x : Zr) xs n p sp m i πs c o :
  (m_G1v_Add ls ls' h = Ret (r, h') -> new_in h h' r) /\
  (m_HadamardProd ls ls' h = Ret (r, h') -> new_in h h' r) /\
  (m_Neg ls h = Ret (r, h') -> new_in h h' r) /\
  (m_Mul ls x h = Ret (r, h') -> new_in h h' r) /\
  (m_Duplicate ls n h = Ret (r, h') -> new_in h h' r) /\
  (m_MulV ls xs h = Ret (r, h') -> new_in h h' (zip r xs ≫= fun lx => if zeqb lx.2 (zr 0) then [] else [lx.1]) /\
    forall j l, r !! j = Some l -> xs !! j = Some (zr 0) -> l = zeroG1) /\
  (m_Sum ls h = Ret (r1, h') -> new_in h h' [r1]) /\
  (m_Exp xs ls h = Ret (r1, h') -> new_in h h' [r1]) /\
  (m_Commit p m h = Ret (r1, h') -> new_in h h' [r1]) /\
  (m_Open p i m h = Ret (o, h') -> new_in h h' [o.2]) /\
  (m_Aggregate p ls πs h = Ret (r1, h') -> new_in h h' [r1]) /\
  (m_NewCommitment sp m c h = Ret (r1, h') -> new_in h h' [r1]).
Proof.
  split_and!; intros H.
  - apply Add_spans in H as [H _]. exact H.
  - apply Add_spans in H as [H _]. exact H.
  - unfold m_Neg in H. apply mbind_inv in H as (z & h1 & H1 & H). apply p_Copy_inv in H1 as [-> H1]. apply mbind_inv in H as (u & h2 & H2 & H).
    apply p_Sub_inv in H2. apply neg_spans in H as [[N F] _]. split; [exact N|]. intros l Hl. apply F in Hl. unfold size in *. lia.
  - apply Mul_spans in H as [H _]. exact H.
  - unfold m_Duplicate in H. destruct ls as [|l [|? ?]]; try discriminate. apply dup_spans in H as [H _]. exact H.
  - unfold m_MulV in H. destruct (length ls =? length xs)%nat; [|discriminate]. apply mulv_spans in H as (_ & H1 & H2). split; [exact H1|exact H2].
  - apply Sum_new in H. apply one. lia.
  - apply Exp_new in H. apply one. lia.
  - unfold m_Commit in H. destruct (length m =? mp_N p)%nat; [|discriminate]. apply mbind_inv in H as (po & h1 & H1 & H). apply mlift_inv in H1 as ->.
    apply mbind_inv in H as (l & h1 & H1 & H). apply MulV_size in H1. apply Sum_new in H. apply one. lia.
  - unfold m_Open in H. destruct (i <? mp_N p)%nat; [|discriminate]. cbv zeta in H. apply mbind_inv in H as (po & h1 & H1 & H). apply mlift_inv in H1 as ->.
    apply mbind_inv in H as (e & h1 & H1 & H). apply mlift_inv in H1 as ->. apply mbind_inv in H as (l & h1 & H1 & H). apply MulV_size in H1.
    apply mbind_inv in H as (π & h2 & H2 & H). apply Sum_new in H2. apply mbind_inv in H as (mi & h3 & H3 & H). apply mlift_inv in H3 as ->.
    apply mret_inv in H as [-> ->]. apply one. cbn. lia.
  - unfold m_Aggregate in H. destruct (length πs =? length ls)%nat; [|discriminate]. apply mbind_inv in H as (l & h1 & H1 & H). apply Sum_new in H.
    apply mmapM_size in H1; [apply one; lia|]. clear. intros j h r h' H. apply mbind_inv in H as (q & h1 & H1 & H). apply mlift_inv in H1 as ->.
    apply mbind_inv in H as (y & h2 & H2 & H). apply p_Mul_inv in H. unfold m_pp_RO in H2. apply mbind_inv in H2 as (vs & h3 & H3 & H2). apply mlift_inv in H2 as ->.
    enough (h3 = h) as -> by lia. clear - H3. revert h h3 vs H3. induction ls as [|l ls IH]; intros h h3 vs H; cbn [derefs] in H.
    + apply mret_inv in H as [_ ->]. reflexivity.
    + apply mbind_inv in H as (v & h1 & H1 & H). apply deref_inv in H1 as ->. apply mbind_inv in H as (vs' & h1 & H1 & H). apply IH in H1 as ->.
      apply mret_inv in H as [_ ->]. reflexivity.
  - unfold m_NewCommitment in H. apply mbind_inv in H as (V & h1 & H1 & H). apply p_Mul_inv in H1 as [-> H1]. apply mbind_inv in H as (t & h2 & H2 & H).
    apply MulV_size in H2. apply mbind_inv in H as (s & h3 & H3 & H). apply Sum_new in H3. apply mbind_inv in H as (u & h4 & H4 & H). apply p_Add_inv in H4.
    apply mbind_inv in H as (v0 & h5 & H5 & H). apply mlift_inv in H5 as ->. cbv zeta in H. apply mbind_inv in H as (vn & h5 & H5 & H). apply mlift_inv in H5 as ->.
    destruct (zeqb _ _) in H; [|discriminate]. apply mret_inv in H as [-> ->]. apply one. lia.
Qed.

(** ** Memories that hold given proofs *)
(** A verifier that has received a proof builds its objects; with this, for every proof there is a memory that the theorems
    above are about. *)
Section Put.
  Context {C : Curve}.
  Local Notation mem := (mem C).
  Local Notation M := (M C).
  Definition put_ipp (p : IPProof C) : M iloc :=
    let* LRs := m_allocs (ipp_LRs p) in let* P := alloc (ipp_P p) in ipp_new (MkObj LRs (ipp_a p) (ipp_b p) P (ipp_C p)).
  Definition put3 (d : G1 C * G1 C * G1 C) : M (loc * loc * loc) :=
    let* a := alloc d.1.1 in let* b := alloc d.1.2 in let* c := alloc d.2 in Model_mem.mret (a, b, c).
  Definition put_rp (q : RangeProof C) : M mRangeProof :=
    let* Δ := mmapM put3 (rp_Δ q) in let* W := alloc (rp_W q) in let* Π := put_ipp (rp_Π q) in let* Q := alloc (rp_Q q) in
    let* R := alloc (rp_R q) in let* C1 := alloc (rp_C1 q) in let* C2 := alloc (rp_C2 q) in
    Model_mem.mret (MkMRP Δ (rp_u q) W (rp_γ q) Π (rp_c q) Q R C1 C2 (rp_τ q) (rp_ρ q)).
  Definition put_sp (q : sumProof C) : M msumProof :=
    let* W := alloc (sm_W q) in let* π := put_ipp (sm_π q) in Model_mem.mret (MkMsp W (sm_c q) (sm_ρ q) π).
  Definition put_ap (q : AggProof C) : M mAggProof :=
    let* ip := put_ipp (ap_IPP q) in let* U := alloc (ap_U q) in let* V := alloc (ap_V q) in let* Ω := alloc (ap_Ω q) in
    let* Wa := m_allocs (ap_Waggr q) in let* Va := m_allocs (ap_Vaggr q) in
    Model_mem.mret (MkMap ip (ap_c q) (ap_ρ q) U V Ω Wa Va).
  Definition put_lp (q : LiabilityProof C) : M mLiabilityProof :=
    let* π := alloc (lp_π q) in let* s := put_sp (lp_sum q) in let* V := m_allocs (lp_V q) in let* W := m_allocs (lp_W q) in
    let* rps := mmapM put_rp (lp_RangeProofs q) in let* e := put_ap (lp_Eq q) in let* t := alloc (tp_proof (lp_Liability q)) in
    Model_mem.mret (MkMlp (lp_Σ q) π s V W (lp_Digests q) rps e (MkMtp t (tp_Sum (lp_Liability q)))).
  (** Parameters, proof and commitments are built, and the proof is verified. *)
  Definition verify_received (f : Z) (t : TreeType) (α : Zr) (fuel : nat) (lp : LiabilityProof C) (id : string) (V W : G1 C) : M error :=
    let* gp := m_GeneratePublicParams f t α in let* l := put_lp lp in let* V := alloc V in let* W := alloc W in
    m_LiabilityProof_Verify l gp.2 id V W (gp.1 fuel).

  Definition puts {A B} (R : mem -> A -> B -> Prop) (m : M A) (b : B) : Prop := forall h, runs m h (Ret b) (fun a h' b => ext [] h h' /\ R h' a b).
  Lemma puts_step {A B A' B'} (R : mem -> A -> B -> Prop) (m : M A) (b : B) (k : A -> M A') h (r : res B') Ψ : puts R m b ->
    (forall a h', ext [] h h' -> R h' a b -> runs (k a) h' r Ψ) -> runs (Model_mem.mbind m k) h r Ψ.
  Proof. intros H K. eapply runs_step; [apply H|]. cbn beta. intros a h' [E X]. auto. Qed.
  Lemma puts_alloc v : puts val (alloc v) v.
  Proof. intros h. eapply runs_post; [apply runs_alloc|]. cbn beta. intros a h' b _ A. split; [eapply acc_e; exact A|eapply acc_v; exact A]. Qed.
  Lemma puts_allocs vs : puts vals (m_allocs vs) vs.
  Proof. intros h. apply runs_allocs. Qed.
  Lemma puts_list {A B} (R : mem -> A -> B -> Prop) (f : B -> M A) l : (forall h h' a b, ext [] h h' -> R h a b -> R h' a b) ->
    (forall b, puts R (f b) b) -> puts (fun h => Forall2 (R h)) (mmapM f l) l.
  Proof.
    intros HR Hf. induction l as [|b l IH]; intros h; cbn [mmapM].
    - apply runs_ret. split; [apply ext_refl|constructor].
    - eapply puts_step; [apply Hf|]. intros a h1 E1 H1. eapply puts_step; [apply IH|]. intros al h2 E2 H2. apply runs_ret.
      split; [eapply ext_trans; eassumption|]. constructor; [eapply HR; eassumption|exact H2].
  Qed.
  Lemma runs_put_ipp p h : runs (put_ipp p) h (Ret p) (fun i h' p => ext [] h h' /\ whole h' i p /\ own h i).
  Proof.
    unfold put_ipp. eapply puts_step; [apply puts_allocs|]. intros LRs h1 E1 H1. eapply puts_step; [apply puts_alloc|]. intros P h2 E2 H2.
    eexists _, _. split; [reflexivity|]. pose proof (ipp_new_spec h2 (MkObj LRs (ipp_a p) (ipp_b p) P (ipp_C p))) as E3.
    split; [eapply ext_trans; [exact E1|eapply ext_trans; eassumption]|].
    pose proof (ext_ipps_length _ _ _ E1). pose proof (ext_ipps_length _ _ _ E2). split; [|unfold own; lia].
    eexists. split; [cbn; apply list_lookup_middle; reflexivity|]. cbn.
    split; [exact (vals_ext _ _ _ _ _ E3 (vals_ext _ _ _ _ _ E2 H1))|]. split; [reflexivity|]. split; [reflexivity|].
    split; [exact (val_ext _ _ _ _ _ E3 H2)|reflexivity].
  Qed.
  Lemma puts_ipp p : puts whole (put_ipp p) p.
  Proof. intros h. eapply runs_post; [apply runs_put_ipp|]. cbn beta. intros ? ? ? _ (? & ? & _). auto. Qed.
  Lemma puts_3 d : puts val3 (put3 d) d.
  Proof.
    intros h. unfold put3. eapply puts_step; [apply puts_alloc|]. intros x h1 E1 H1. eapply puts_step; [apply puts_alloc|]. intros y h2 E2 H2.
    eapply puts_step; [apply puts_alloc|]. intros z h3 E3 H3. apply runs_ret.
    split; [eapply ext_trans; [exact E1|eapply ext_trans; eassumption]|]. pose proof (ext_trans _ _ _ _ E2 E3) as E23.
    split; [exact (val_ext _ _ _ _ _ E23 H1)|]. split; [exact (val_ext _ _ _ _ _ E3 H2)|exact H3].
  Qed.
  Lemma runs_put_rp q h : runs (put_rp q) h (Ret q) (fun rp h' q => ext [] h h' /\ rel_rp h' rp q /\ own h (mq_Π rp)).
  Proof.
    unfold put_rp.
    eapply puts_step; [apply (puts_list val3); [intros ? ? ? ? E; apply (val3_ext _ _ _ _ _ E)|apply puts_3]|]. intros Δ h1 E1 H1.
    eapply puts_step; [apply puts_alloc|]. intros W h2 E2 H2. eapply runs_step; [apply runs_put_ipp|]. cbn beta. intros Π h3 (E3 & H3 & O3).
    eapply puts_step; [apply puts_alloc|]. intros Q h4 E4 H4. eapply puts_step; [apply puts_alloc|]. intros R h5 E5 H5.
    eapply puts_step; [apply puts_alloc|]. intros C1 h6 E6 H6. eapply puts_step; [apply puts_alloc|]. intros C2 h7 E7 H7. apply runs_ret.
    pose proof (ext_trans _ _ _ _ E6 E7) as E67. pose proof (ext_trans _ _ _ _ E5 E67) as E57. pose proof (ext_trans _ _ _ _ E4 E57) as E47.
    pose proof (ext_trans _ _ _ _ E3 E47) as E37. pose proof (ext_trans _ _ _ _ E2 E37) as E27.
    split; [eapply ext_trans; eassumption|].
    pose proof (ext_ipps_length _ _ _ E1). pose proof (ext_ipps_length _ _ _ E2). split; [|unfold own in *; cbn; lia].
    unfold rel_rp. cbn. split_and!; try reflexivity.
    - exact (val3s_ext _ _ _ _ _ E27 H1).
    - exact (val_ext _ _ _ _ _ E37 H2).
    - apply whole_core. exact (whole_ext _ _ _ _ E47 H3).
    - exact (val_ext _ _ _ _ _ E57 H4).
    - exact (val_ext _ _ _ _ _ E67 H5).
    - exact (val_ext _ _ _ _ _ E7 H6).
    - exact H7.
  Qed.
  Lemma puts_rp q : puts rel_rp (put_rp q) q.
  Proof. intros h. eapply runs_post; [apply runs_put_rp|]. cbn beta. intros ? ? ? _ (? & ? & _). auto. Qed.
  Lemma puts_sp q : puts rel_sp (put_sp q) q.
  Proof.
    intros h. unfold put_sp. eapply puts_step; [apply puts_alloc|]. intros W h1 E1 H1. eapply puts_step; [apply puts_ipp|]. intros π h2 E2 H2.
    apply runs_ret. split; [eapply ext_trans; eassumption|]. split_and!; try reflexivity; [exact (val_ext _ _ _ _ _ E2 H1)|apply whole_core; exact H2].
  Qed.
  Lemma puts_ap q : puts rel_ap (put_ap q) q.
  Proof.
    intros h. unfold put_ap. eapply puts_step; [apply puts_ipp|]. intros ip h1 E1 H1. eapply puts_step; [apply puts_alloc|]. intros U h2 E2 H2.
    eapply puts_step; [apply puts_alloc|]. intros V h3 E3 H3. eapply puts_step; [apply puts_alloc|]. intros Ω h4 E4 H4.
    eapply puts_step; [apply puts_allocs|]. intros Wa h5 E5 H5. eapply puts_step; [apply puts_allocs|]. intros Va h6 E6 H6. apply runs_ret.
    pose proof (ext_trans _ _ _ _ E5 E6) as E56. pose proof (ext_trans _ _ _ _ E4 E56) as E46. pose proof (ext_trans _ _ _ _ E3 E46) as E36.
    pose proof (ext_trans _ _ _ _ E2 E36) as E26. split; [eapply ext_trans; eassumption|]. unfold rel_ap. cbn. split_and!; try reflexivity.
    - apply whole_core. exact (whole_ext _ _ _ _ E26 H1).
    - exact (val_ext _ _ _ _ _ E36 H2).
    - exact (val_ext _ _ _ _ _ E46 H3).
    - exact (val_ext _ _ _ _ _ E56 H4).
    - exact (vals_ext _ _ _ _ _ E6 H5).
    - exact H6.
  Qed.
  Lemma puts_lp q : puts rel_lp (put_lp q) q.
  Proof.
    intros h. unfold put_lp. eapply puts_step; [apply puts_alloc|]. intros π h1 E1 H1. eapply puts_step; [apply puts_sp|]. intros s h2 E2 H2.
    eapply puts_step; [apply puts_allocs|]. intros V h3 E3 H3. eapply puts_step; [apply puts_allocs|]. intros W h4 E4 H4.
    eapply puts_step; [apply (puts_list rel_rp); [intros ? ? ? ? E; apply (rel_rp_ext _ _ _ _ _ E)|apply puts_rp]|]. intros rps h5 E5 H5.
    eapply puts_step; [apply puts_ap|]. intros e h6 E6 H6. eapply puts_step; [apply puts_alloc|]. intros t h7 E7 H7. apply runs_ret.
    pose proof (ext_trans _ _ _ _ E6 E7) as E67. pose proof (ext_trans _ _ _ _ E5 E67) as E57. pose proof (ext_trans _ _ _ _ E4 E57) as E47.
    pose proof (ext_trans _ _ _ _ E3 E47) as E37. pose proof (ext_trans _ _ _ _ E2 E37) as E27.
    split; [eapply ext_trans; eassumption|]. unfold rel_lp. cbn. split_and!; try reflexivity.
    - exact (val_ext _ _ _ _ _ E27 H1).
    - exact (rel_sp_ext _ _ _ _ _ E37 H2).
    - exact (vals_ext _ _ _ _ _ E47 H3).
    - exact (vals_ext _ _ _ _ _ E57 H4).
    - eapply Forall2_impl; [exact H5|]. intros ? ?. apply (rel_rp_ext _ _ _ _ _ E67).
    - exact (rel_ap_ext _ _ _ _ _ E7 H6).
    - split; [exact H7|reflexivity].
  Qed.
  Lemma sane_init : sane (mem_init (C:=C)).
  Proof. split; reflexivity. Qed.
End Put.

(** From the start of the program: the verdict on a received proof is the one of the value-level model. *)
Theorem C91_received (C : Curve) f t α fuel lp id V W :
  does (verify_received (C:=C) f t α fuel lp id V W) mem_init
    (let! gp := GeneratePublicParams (C:=C) f t α in LiabilityProof_Verify lp gp.2 id V W (gp.1 fuel)) [] same.
Proof.
  assert (forall S (h h' : mem C), ext S h h' -> mipps h = [] -> ext [] h h') as K.
  { intros S h h' [E1 E2 (w & W' & F)] Hn. split; [exact E1| |].
    - intros i o H. rewrite Hn in H. discriminate H.
    - exists w. split; [exact W'|]. eapply Forall_impl; [exact F|]. intros [l|i]; [auto|]. intros _. right. rewrite Hn. cbn. lia. }
  apply (runs_does _ _ _ _ _ (fun a h' b => (exists S, ext S (mem_init (C:=C)) h') /\ a = b)); [|intros a h' b [[S E] ->]; split; [exact (K _ _ _ E Logic.eq_refl)|reflexivity]].
  destruct (sane_init (C:=C)) as [Z G]. unfold verify_received.
  eapply runs_bind; [eapply runs_GeneratePublicParams; eassumption|]. cbn beta. intros [g pp] h1 [gv ppv] _ (E1 & Hg & HP). cbn [fst snd] in *. subst gv.
  eapply puts_step; [apply puts_lp|]. intros l h2 E2 H2. eapply puts_step; [apply puts_alloc|]. intros V' h3 E3 H3. eapply puts_step; [apply puts_alloc|]. intros W' h4 E4 H4.
  pose proof (ext_trans _ _ _ _ E3 E4) as E34. pose proof (ext_trans _ _ _ _ E2 E34) as E24. pose proof (ext_trans _ _ _ _ E1 E24) as E14.
  eapply runs_post; [eapply runs_LiabilityProof_Verify|].
  - exact (val_ext _ _ _ _ _ E14 Z).
  - exact (rel_pol_ext _ _ _ _ _ E24 HP).
  - exact (rel_lp_ext _ _ _ _ _ E34 H2).
  - exact (val_ext _ _ _ _ _ E4 H3).
  - exact H4.
  - cbn beta. intros e h5 e' _ [E5 ->]. split; [|reflexivity]. exists (ml_proofs l).
    eapply ext_trans; [|exact E5]. apply ext_weaken_nil. exact E14.
Qed.
(** The proof of C53_nonvacuous, in a dense tree with fanout 7, is accepted at the level of the memory too. *)
Example C91_nonvacuous : exists V W lp h', verify_received (C:=toy) 7 Dense (zr 5) 0 lp "123456789" V W mem_init = Ret (nil_error, h') /\
  length (lp_W lp) = 10%nat.
Proof.
  destruct ex_dense_run as (pp & g & ls & ls' & V & W & lp & H1 & H2 & H3 & H4 & H5 & H6 & H7).
  pose proof (C91_received toy 7 Dense (zr 5) 0 lp "123456789" V W) as D. rewrite H1 in D. cbn [rbind fst snd] in D. rewrite H2, H7 in D.
  destruct D as (e & h' & E & _ & X). cbv [same] in X. subst e. exists V, W, lp, h'. split; [exact E|].
  apply C55_acceptance in H7 as (p & Hp & H7). rewrite ex_dense_path1 in Hp. assert (ex_dense_p1 = p) as <- by (injection Hp; done).
  destruct H7 as [HW _ _ _ _ _ _ _ _ _ _]. change (length ex_dense_p1) with 11%nat in HW. lia.
Qed.

(** A point other than the neutral element beside the shared objects *)
Example C91_shared_zero_nonvacuous : let h := MkMem [gzero; gen1 toy; gen1 toy] [] [] in
  sane h /\ (2 <= 2)%nat /\ point h 2%nat (gen1 toy) /\ gen1 toy <> gzero.
Proof. split; [split; reflexivity|]. split; [lia|]. split; [reflexivity|]. apply gen1_neq_0. Qed.
(** Two proofs in one memory: the objects the theorems ask for exist for any two range proofs, and their inner-product proofs
    are different objects; here the parameters come from GeneratePublicParams. *)
Example C91_side_by_side_nonvacuous (C : Curve) f t α g q rq1 rq2 v1 v2 : GeneratePublicParams (C:=C) f t α = Ret (g, q) ->
  exists h p rp1 rp2 V1 V2, sane (C:=C) h /\ rel_pol h p q /\ rel_rp h rp1 rq1 /\ point h V1 v1 /\ rel_rp h rp2 rq2 /\ point h V2 v2 /\ mq_Π rp1 <> mq_Π rp2.
Proof.
  intros HG. destruct (sane_init (C:=C)) as [Z G]. pose proof (runs_GeneratePublicParams mem_init f t α Z G) as R. rewrite HG in R.
  destruct R as ([g' p] & h1 & _ & E1 & _ & HP). cbn [fst snd] in HP.
  destruct (runs_put_rp rq1 h1) as (rp1 & h2 & _ & E2 & H2 & O2). destruct (runs_put_rp rq2 h2) as (rp2 & h3 & _ & E3 & H3 & O3).
  destruct (puts_alloc v1 h3) as (V1 & h4 & _ & E4 & H4). destruct (puts_alloc v2 h4) as (V2 & h5 & _ & E5 & H5).
  pose proof (ext_trans _ _ _ _ E4 E5) as E45. pose proof (ext_trans _ _ _ _ E3 E45) as E35. pose proof (ext_trans _ _ _ _ E2 E35) as E25.
  pose proof (ext_trans _ _ _ _ E1 E25) as E15.
  exists h5, p, rp1, rp2, V1, V2. split; [split; [exact (val_ext _ _ _ _ _ E15 Z)|exact (val_ext _ _ _ _ _ E15 G)]|].
  split; [exact (rel_pol_ext _ _ _ _ _ E25 HP)|]. split; [exact (rel_rp_ext _ _ _ _ _ E35 H2)|]. split; [exact (val_ext _ _ _ _ _ E5 H4)|].
  split; [exact (rel_rp_ext _ _ _ _ _ E45 H3)|]. split; [exact H5|].
  destruct H2 as (_ & _ & _ & _ & (o & Ho & _) & _). apply lookup_lt_Some in Ho. unfold own in O3. lia.
Qed.

Print Assumptions C91_vectors.
Print Assumptions C91_shared_zero.
Print Assumptions C91_inner_product_verify.
Print Assumptions C91_range_verify.
Print Assumptions C91_point_verify.
Print Assumptions C91_sum_verify.
Print Assumptions C91_equality_verify.
Print Assumptions C91_liability_verify.
Print Assumptions C91_commitments.
Print Assumptions C91_update.
Print Assumptions C91_proofs.
Print Assumptions C91_parameters.
Print Assumptions C91_stays.
Print Assumptions C91_any_order.
Print Assumptions C91_again.
Print Assumptions C91_side_by_side.
Print Assumptions C91_new.
Print Assumptions C91_received.
