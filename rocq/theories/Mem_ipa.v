(** The memory-level functions of bp/innerprod.go and bp/ir.go compared with those of Model_ipa and Model_ir. *)
From Verif Require Export Mem_common.
Local Open Scope Zr_scope.

Section Rel.
  Context {C : Curve}.
  (** The parameters p, as pointers into h, are q. *)
  Definition rel_bp (h : mem C) (p : mbpPP) (q : bpPP C) : Prop :=
    mb_Digest p = bp_Digest q /\ vals h (mb_G p) (bp_G q) /\ vals h (mb_H p) (bp_H q) /\ val h (mb_U p) (bp_U q).
  Lemma rel_bp_ext S h h' p q : ext S h h' -> rel_bp h p q -> rel_bp h' p q.
  Proof. intros E (H1 & H2 & H3 & H4). split_and!; [exact H1|eapply vals_ext; eassumption..|eapply val_ext; eassumption]. Qed.
  Definition rel_ipa (h : mem C) (p : mIPA) (q : IPArgument C) : Prop :=
    rel_bp h (ma_pp p) (ipa_pp q) /\ ma_a p = ipa_a q /\ ma_b p = ipa_b q /\ ma_C p = ipa_C q /\ val h (ma_P p) (ipa_P q).
  Lemma rel_ipa_ext S h h' p q : ext S h h' -> rel_ipa h p q -> rel_ipa h' p q.
  Proof. intros E (H1 & H2 & H3 & H4 & H5). split_and!; try assumption; [eapply rel_bp_ext; eassumption|eapply val_ext; eassumption]. Qed.
  Definition rel_next (h : mem C) (p : mNext) (q : nextParams C) : Prop :=
    mn_x p = np_x q /\ mn_xInv p = np_xInv q /\ vals h (mn_g p) (np_g q) /\ vals h (mn_h p) (np_h q) /\ val h (mn_P p) (np_P q).

  Lemma rbind_assoc {A B D} (x : res A) (f : A -> res B) (g : B -> res D) : rbind (rbind x f) g = rbind x (fun a => rbind (f a) g).
  Proof. destruct x; reflexivity. Qed.
  Lemma runs_assoc {A B D E'} (m : M C A) h (x : res B) (f : B -> res D) (g : D -> res E') Ψ :
    runs m h (rbind x (fun a => rbind (f a) g)) Ψ -> runs m h (rbind (rbind x f) g) Ψ.
  Proof. rewrite rbind_assoc. exact id. Qed.
  Lemma runs_if {A B} (c : bool) (m1 m2 : M C A) h (r1 r2 : res B) Ψ :
    (c = true -> runs m1 h r1 Ψ) -> (c = false -> runs m2 h r2 Ψ) -> runs (if c then m1 else m2) h (if c then r1 else r2) Ψ.
  Proof. destruct c; auto. Qed.
  Lemma runs_check {A B} (c : bool) (m1 : M C A) h (r1 : res B) Ψ :
    (c = true -> runs m1 h r1 Ψ) -> runs (if c then m1 else mpanic) h (if c then r1 else Panic) Ψ.
  Proof. destruct c; [auto|reflexivity]. Qed.
End Rel.

(** Facts about h become facts about h' *)
Ltac up E := match type of E with ext _ ?h ?h' => repeat match goal with
  | H : val h _ _ |- _ => apply (val_ext _ _ _ _ _ E) in H
  | H : vals h _ _ |- _ => apply (vals_ext _ _ _ _ _ E) in H
  | H : Forall2 (val3 h) _ _ |- _ => apply (val3s_ext _ _ _ _ _ E) in H
  | H : core h _ _ |- _ => apply (core_ext _ _ _ _ _ E) in H
  | H : zero_ok h |- _ => apply (zero_ok_ext _ _ _ E) in H
  | H : rel_bp h _ _ |- _ => apply (rel_bp_ext _ _ _ _ _ E) in H
  | H : rel_ipa h _ _ |- _ => apply (rel_ipa_ext _ _ _ _ _ E) in H
  | H : whole h _ _ |- _ => apply (whole_ext _ _ _ _ E) in H
  | H : ext [] _ h |- _ => apply (fun e => ext_trans _ _ _ _ e E) in H
  | H : ext ?S _ h |- _ => apply (fun e => ext_trans S _ _ _ e (ext_weaken_nil S _ _ E)) in H
  end end; clear E.
(** Points under construction stay so *)
Ltac push E := match type of E with ext _ ?h ?h' => repeat match goal with
  | H : acc _ h _ _ |- _ => apply (fun a => acc_ext _ _ _ _ _ a E) in H
  end end.
(** Finding a fact about the current memory *)
Ltac ex := first [eassumption | eapply acc_e; eassumption].
Ltac sd := first
  [ eassumption | eapply acc_v; eassumption
  | eapply val_ext; [|eassumption]; ex
  | eapply vals_ext; [|eassumption]; ex
  | eapply val3s_ext; [|eassumption]; ex
  | eapply zero_ok_ext; [|eassumption]; ex
  | eapply rel_bp_ext; [|eassumption]; ex
  | eapply rel_ipa_ext; [|eassumption]; ex
  | eapply core_ext; [|eassumption]; ex ].
(** The point X with A : acc hb h X v is finished: go on from h *)
Ltac fin A := let E := fresh in pose proof (acc_e _ _ _ _ A) as E; apply acc_v in A; up E.

(** X := l.Mul(x), to be added to *)
Tactic Notation "start" ident(X) ident(A) := eapply runs_step; [eapply runs_Mul; sd|]; cbn beta; intros X ? A.
(** t := l.Mul(x) with other points under construction *)
Tactic Notation "tmul" := eapply runs_step; [eapply runs_Mul; sd|]; cbn beta;
  let t := fresh "t" in let h := fresh "h" in let T := fresh "T" in intros t h T;
  let E := fresh in pose proof (acc_e _ _ _ _ T) as E; push E; apply acc_v in T; clear E.
(** X.Add(l) *)
Tactic Notation "add" ident(A) := eapply runs_step; [eapply runs_Add; [exact A|sd]|]; cbn beta; clear A;
  let h := fresh "h" in intros ? h A.
(** t := l.MulV(xs); s := t.Sum() while X is under construction *)
Tactic Notation "tmulvsum" := try apply runs_assoc; eapply runs_bind; [eapply runs_MulV; sd|]; cbn beta;
  let t := fresh "t" in let h := fresh "h" in let T := fresh "T" in let E := fresh in intros t h ? _ [E T]; push E; clear E;
  eapply runs_bind; [eapply runs_Sum; exact T|]; cbn beta; clear T;
  let t := fresh "t" in let h := fresh "h" in let T := fresh "T" in let E := fresh in intros t h ? _ T;
  pose proof (acc_e _ _ _ _ T) as E; push E; apply acc_v in T; clear E.
(** A step with a counterpart that makes new points, nothing being under construction *)
Tactic Notation "new" constr(L) ident(t) ident(v) := eapply runs_bind; [eapply L; sd|]; cbn beta;
  let E := fresh in let V := fresh "V" in intros t ? v _ [E V]; up E.
Tactic Notation "news" constr(L) ident(t) := eapply runs_step; [eapply L; sd|]; cbn beta;
  let E := fresh in let V := fresh "V" in intros t ? [E V]; up E.
(** A new point that is complete *)
Tactic Notation "pt" ident(t) ident(V) := eapply runs_step; [eapply runs_Mul; sd|]; cbn beta; intros t ? V; fin V.
(** A step that only reads *)
Tactic Notation "rd" constr(L) := first [eapply runs_step; [eapply L; sd|]; cbn beta; intros ? ? [-> ->]
                                        |eapply runs_bind; [eapply L; sd|]; cbn beta; intros ? ? ? _ [-> ->]].
(** A pure step *)
Tactic Notation "pu" ident(a) := apply runs_lift_bind; intros a ?.
Tactic Notation "ix" constr(L) ident(t) ident(v) ident(V) := eapply runs_bind; [eapply L; sd|]; cbn beta; intros t ? v _ [-> V].

Section Ipa.
  Context {C : Curve}.
  Local Notation mem := (mem C).
  Local Notation M := (M C).

  Lemma runs_RecomputeDigest h p (q : bpPP C) : rel_bp h p q ->
    runs (m_RecomputeDigest p) h (RecomputeDigest q) (fun a h' b => h' = h /\ rel_bp h a b).
  Proof.
    intros (H1 & H2 & H3 & H4). unfold m_RecomputeDigest, RecomputeDigest, setupDigest.
    rd @runs_deref.
    rd @runs_derefs. rd @runs_derefs. pu pre. apply runs_ret. split; [reflexivity|]. split_and!; assumption || reflexivity.
  Qed.

  Lemma commit_acc_not_hang (v : G1 C) g a : commit_acc v g a <> Hang.
  Proof. revert v g. induction a as [|x a IH]; intros v [|P g]; cbn [commit_acc]; try discriminate. apply IH. Qed.
  Lemma runs_commit_loop hb h X Y (vX vY : G1 C) G Gv H Hv a b :
    acc hb h X vX -> acc hb h Y vY -> X <> Y -> vals hb G Gv -> vals hb H Hv -> length a = length b ->
    runs (m_commit_loop X Y G H a b) h (let! g := commit_acc vX Gv a in let! k := commit_acc vY Hv b in Ret (g, k))
      (fun _ h' r => acc hb h' X (fst r) /\ acc hb h' Y (snd r)).
  Proof.
    revert h vX vY G Gv H Hv b. induction a as [|x a IH]; intros h vX vY G Gv H Hv b AX AY N HG HH Hl;
      (destruct b as [|y b]; [try discriminate|try discriminate]); cbn [m_commit_loop commit_acc rbind].
    - apply runs_ret. auto.
    - inversion HG as [|P Pv G' Gv' HP HG']; subst; [reflexivity|].
      inversion HH as [|Q Qv H' Hv' HQ HH']; subst.
      + cbn [commit_acc]. pose proof (commit_acc_not_hang (gadd vX (gmul x Pv)) Gv' a) as Hh.
        destruct (commit_acc (gadd vX (gmul x Pv)) Gv' a); [reflexivity..|congruence].
      + cbn [commit_acc].
        eapply runs_step; [eapply runs_Mul; eapply val_ext; [eapply acc_e; exact AX|exact HP]|]. cbn beta. intros t1 h1 T1.
        pose proof (acc_e _ _ _ _ T1) as E1. push E1.
        eapply runs_step; [eapply (runs_Add2 hb h1 X vX t1 _ Y vY N AX AY); apply T1|]. cbn beta. intros ? h2 [AX2 AY2]. clear AX AY.
        eapply runs_step; [eapply runs_Mul; eapply val_ext; [eapply acc_e; exact AX2|exact HQ]|]. cbn beta. intros t3 h3 T3.
        pose proof (acc_e _ _ _ _ T3) as E3. push E3.
        eapply runs_step; [eapply (runs_Add2 hb h3 Y vY t3 _ X _ (not_eq_sym N) AY2 AX2); apply T3|]. cbn beta. intros ? h4 [AY4 AX4].
        apply IH; try assumption. cbn in Hl. lia.
  Qed.

  Lemma runs_commit h p (q : bpPP C) a b : rel_bp h p q ->
    runs (m_commit p a b) h (bp_commit q a b) (fun l h' v => acc h h' l v).
  Proof.
    intros (H1 & H2 & H3 & H4). unfold m_commit, bp_commit. destruct (length a =? length b)%nat eqn:El; [|reflexivity].
    apply Nat.eqb_eq in El. destruct a as [|a0 a], b as [|b0 b]; try reflexivity; try discriminate.
    inversion H2 as [|G0 G0v G Gv HG0 HG]; subst; [reflexivity|].
    inversion H3 as [|K0 K0v K Kv HK0 HK]; subst; [reflexivity|].
    start X A. eapply runs_step; [eapply runs_Mul; eapply val_ext; [eapply acc_e; exact A|exact HK0]|]. cbn beta. intros Y h2 B.
    assert (X <> Y) as N.
    { destruct B as (_ & L & _). pose proof (val_lt _ _ _ (acc_v _ _ _ _ A)). lia. }
    assert (acc h h2 Y (gmul b0 K0v)) as B' by (eapply acc_base; [eapply acc_e; exact A|exact B]).
    pose proof (acc_e _ _ _ _ B) as E. clear B. push E.
    pose proof (runs_commit_loop h h2 X Y _ _ G Gv K Kv a b A B' N HG HK ltac:(cbn in El; lia)) as L.
    destruct (commit_acc (gmul a0 G0v) Gv a) as [g| |] eqn:Eg; cbn [rbind] in L |- *.
    - destruct (commit_acc (gmul b0 K0v) Kv b) as [k| |] eqn:Ek; cbn [rbind] in L |- *.
      + eapply runs_step; [exact L|]. cbn beta. intros ? h3 [A3 B3]. cbn [fst snd] in A3, B3.
        eapply runs_step; [eapply runs_Add; [exact A3|eapply acc_v; exact B3]|]. cbn beta. intros ? h4 A4.
        apply runs_ret. exact A4.
      + unfold runs in L |- *. unfold mbind at 1. rewrite L. reflexivity.
      + unfold runs in L |- *. unfold mbind at 1. rewrite L. reflexivity.
    - unfold runs in L |- *. unfold mbind at 1. rewrite L. reflexivity.
    - unfold runs in L |- *. unfold mbind at 1. rewrite L. reflexivity.
  Qed.

  Lemma runs_NewInnerProdArgument h p (q : bpPP C) a b : rel_bp h p q ->
    runs (m_NewInnerProdArgument p a b) h (NewInnerProdArgument q a b) (fun l h' v => ext [] h h' /\ rel_ipa h' l v).
  Proof.
    intros H. unfold m_NewInnerProdArgument, NewInnerProdArgument. pu c.
    eapply runs_bind; [eapply runs_commit; exact H|]. cbn beta. intros P h1 Pv _ A.
    apply runs_ret. split; [apply A|]. split_and!; try reflexivity; [eapply rel_bp_ext; [apply A|exact H]|apply A].
  Qed.

  Lemma runs_cisp h p (q : bpPP C) P Pv c : rel_bp h p q -> val h P Pv ->
    runs (m_computeInstanceSpecificParams p P c) h (computeInstanceSpecificParams q Pv c)
      (fun a h' b => ext [] h h' /\ rel_bp h' (fst a) (fst b) /\ val h' (snd a) (snd b)).
  Proof.
    intros H HP. unfold m_computeInstanceSpecificParams, computeInstanceSpecificParams.
    rd @runs_Bytes. pose proof H as (H1 & H2 & H3 & H4). rewrite H1. pu x.
    pose proof (ext_refl [] h) as E0.
    eapply runs_step; [eapply runs_Copy; exact HP|]. cbn beta. intros P' h1 A. tmul. add A. fin A.
    pt U VU.
    eapply runs_bind; [apply runs_RecomputeDigest|].
    { split_and!; cbn; assumption || reflexivity. }
    cbn beta. intros pp' h5 ppv' _ [-> Hpp]. apply runs_ret. cbn [fst snd]. split_and!; assumption.
  Qed.

  Lemma runs_randomOracle h L Lv R Rv x : val h L Lv -> val h R Rv ->
    runs (m_randomOracle L R x) h (Ret (randomOracle (C:=C) Lv Rv x)) (fun a h' b => h' = h /\ a = b).
  Proof. intros HL HR. unfold m_randomOracle. rd @runs_Bytes. rd @runs_Bytes. apply runs_ret. auto. Qed.

  Lemma runs_computeNextParams h L (Lv : G1 C) R Rv p q g gv k kv P Pv :
    val h L Lv -> val h R Rv -> mb_Digest p = bp_Digest q -> vals h g gv -> vals h k kv -> val h P Pv ->
    runs (m_computeNextParams L R p g k P) h (computeNextParams Lv Rv q gv kv Pv) (fun a h' b => ext [] h h' /\ rel_next h' a b).
  Proof.
    intros HL HR HD Hg Hk HP. unfold m_computeNextParams, computeNextParams. rewrite HD, (vals_length _ _ _ Hg).
    pose proof (ext_refl [] h) as E0.
    rd @runs_randomOracle. pu x.
    ix @runs_slice_to gL gLv VgL. ix @runs_slice_from gR gRv VgR.
    news @runs_G1v_Mul g1. clear VgL. news @runs_G1v_Mul g2. clear VgR. new @runs_HadamardProd nextG nextGv. clear V V0.
    ix @runs_slice_to hL hLv VhL. ix @runs_slice_from hR hRv VhR.
    news @runs_G1v_Mul h1. clear VhL. news @runs_G1v_Mul h2. clear VhR. new @runs_HadamardProd nextH nextHv.
    pt L2 VL2. pt R2 VR2. eapply runs_step; [eapply runs_Copy; sd|]. cbn beta. intros nP ? A. add A. add A. fin A.
    apply runs_ret. split; [exact E0|]. split_and!; cbn; assumption || reflexivity.
  Qed.

  Lemma runs_prove fuel h p (q : bpPP C) a b P Pv g gv k kv : rel_bp h p q -> val h P Pv -> vals h g gv -> vals h k kv ->
    runs (m_prove fuel p a b P g k) h (ipa_prove fuel q a b Pv gv kv)
      (fun r h' b => ext [] h h' /\ vals h' (fst r) (fst b) /\ snd r = snd b).
  Proof.
    revert h a b P Pv g gv k kv. induction fuel as [|fuel IH]; intros h a b P Pv g gv k kv Hpp HP Hg Hk; [reflexivity|].
    cbn [m_prove ipa_prove]. rewrite (vals_length _ _ _ Hg), (vals_length _ _ _ Hk).
    apply runs_check. intros El. pose proof Hpp as (HD & _ & _ & HU). apply runs_if; intros E1.
    - pu a0. pu b0. apply runs_ret. cbn. split; [apply ext_refl|]. split; [constructor|reflexivity].
    - pose proof (ext_refl [] h) as E0.
      pu aL. pu aR. pu bL. pu bR.
      ix @runs_slice_to gL gLv VgL. ix @runs_slice_from gR gRv VgR.
      ix @runs_slice_to hL hLv VhL. ix @runs_slice_from hR hRv VhR.
      pu cL. pu cR.
      eapply runs_bind; [eapply runs_Exp; sd|]. cbn beta. intros L ? Lg _ A.
      eapply runs_bind; [eapply runs_Exp; sd|]. cbn beta. intros Lh ? Lhv _ T. pose proof (acc_e _ _ _ _ T) as ET. push ET. apply acc_v in T. clear ET.
      add A. clear T. tmul. add A. clear T. fin A.
      eapply runs_bind; [eapply runs_Exp; sd|]. cbn beta. intros R ? Rg _ B.
      eapply runs_bind; [eapply runs_Exp; sd|]. cbn beta. intros Rh ? Rhv _ T. pose proof (acc_e _ _ _ _ T) as ET. push ET. apply acc_v in T. clear ET.
      add B. clear T. tmul. add B. clear T. fin B.
      eapply runs_bind; [eapply runs_computeNextParams; sd|]. cbn beta. intros np hn npv _ [En (N1 & N2 & N3 & N4 & N5)]. up En.
      rewrite N1, N2. pu a'. pu b'.
      eapply runs_bind; [eapply IH; sd|]. cbn beta. intros [LRs ab] hf [LRsv abv] _ (E & Vf & Eab). cbn [fst snd] in *. up E.
      apply runs_ret. cbn [fst snd]. split; [exact E0|]. split; [|exact Eab]. repeat apply vals_cons; assumption.
  Qed.

  Lemma ipp_new_spec (h : mem) o : ext [] h (MkMem (mpts h) (mipps h ++ [o]) (mwrites h)).
  Proof.
    split; cbn; [done| |exists []; split; [reflexivity|constructor]]. intros i o' H. exists o'. split; [|auto].
    apply lookup_app_l_Some. exact H.
  Qed.
  Lemma runs_IPA_Prove h a (b : IPArgument C) : rel_ipa h a b ->
    runs (m_IPA_Prove a) h (IPA_Prove b) (fun i h' p => ext [] h h' /\ (length (mipps h) <= i)%nat /\ whole h' i p).
  Proof.
    intros (Hpp & Ha & Hb & Hc & HP). unfold m_IPA_Prove, IPA_Prove. pose proof (ext_refl [] h) as E0.
    pose proof Hpp as (_ & HG & HH & _). rewrite Hc, Ha, Hb, (vals_length _ _ _ HG).
    eapply runs_bind; [eapply runs_cisp; sd|]. cbn beta. intros [pp P] h1 [ppv Pv] _ (E & H1 & H2). cbn [fst snd] in *. up E.
    eapply runs_bind; [eapply runs_prove; sd|]. cbn beta. intros [LRs ab] h2 [LRsv abv] _ (E & H3 & H4). cbn [fst snd] in *. up E. subst abv.
    eexists _, _. split; [reflexivity|]. pose proof (ipp_new_spec h2 (MkObj LRs ab.1 ab.2 (ma_P a) (ipa_C b))) as E.
    pose proof (ext_ipps_length _ _ _ E0) as Hl. up E.
    split; [exact E0|]. split; [exact Hl|]. eexists. split; [cbn; apply list_lookup_middle; reflexivity|]. cbn. split_and!; auto.
  Qed.

  Lemma runs_verify h p (q : bpPP C) P Pv g gv k kv LRs LRsv a b :
    rel_bp h p q -> val h P Pv -> vals h g gv -> vals h k kv -> vals h LRs LRsv ->
    runs (m_verify p P g k LRs a b) h (ipa_verify q Pv gv kv LRsv a b) (fun e h' e' => ext [] h h' /\ e = e').
  Proof.
    remember (length LRs) as n eqn:En. revert h P Pv g gv k kv LRs LRsv En.
    induction n as [n IH] using (well_founded_induction lt_wf).
    intros h P Pv g gv k kv LRs LRsv En Hpp HP Hg Hk HLR. pose proof (ext_refl [] h) as E0. pose proof Hpp as (HD & _ & _ & HU).
    destruct LRs as [|L LRs]; (inversion HLR as [|? Lv ? LRsv' HL HLR']; subst); cbn [m_verify ipa_verify];
      rewrite (vals_length _ _ _ Hg); (apply runs_if; intros E1).
    1,3: eapply runs_step; [eapply runs_Mul; sd|]; cbn beta; intros X ? A;
      eapply runs_bind; [eapply runs_idx; sd|]; cbn beta; intros g0 ? g0v _ [-> Vg0];
      tmul; add A; clear T;
      eapply runs_bind; [eapply runs_idx; sd|]; cbn beta; intros k0 ? k0v _ [-> Vk0];
      tmul; add A; clear T; clear Vg0 Vk0; fin A;
      rd @runs_Equals; apply runs_if; intros _; apply runs_ret; auto.
    - reflexivity.
    - destruct LRs as [|R LRs]; inversion HLR' as [|? Rv ? LRsv'' HR HLR'']; subst; [reflexivity|].
      eapply runs_bind; [eapply runs_computeNextParams; sd|]. cbn beta. intros np hn npv _ [E2 (N1 & N2 & N3 & N4 & N5)]. up E2.
      eapply runs_post; [eapply (IH (length LRs)); [cbn; lia|reflexivity|sd..]|].
      cbn beta. intros e hz e' _ [E ->]. split; [eapply ext_trans; eassumption|reflexivity].
  Qed.

  (** The claim of the proof is P, c: either it was made so or it has just been set. *)
  Lemma runs_IPP_Verify h i (pf : IPProof C) p q : whole h i pf -> rel_bp h p q ->
    runs (m_IPP_Verify i p) h (IPP_Verify pf q) (fun e h' e' => ext [] h h' /\ e = e').
  Proof.
    intros (o & Ho & HL & Ha & Hb & HP & Hc) Hpp. unfold m_IPP_Verify, IPP_Verify. pose proof (ext_refl [] h) as E0.
    eapply (runs_step _ _ _ o _ (fun a h' b => h' = h /\ a = b)); [exists o, h; unfold ipp_get; rewrite Ho; auto|].
    intros ? ? [-> ->]. rewrite Hc, Ha, Hb.
    eapply runs_bind; [eapply runs_cisp; sd|]. cbn beta. intros [pp P] h1 [ppv Pv] _ (E & H1 & H2). cbn [fst snd] in *. up E.
    pose proof H1 as (_ & HG & HH & _).
    eapply runs_post; [eapply runs_verify; sd|]. cbn beta. intros e hz e' _ [E ->]. split; [eapply ext_trans; eassumption|reflexivity].
  Qed.
  (** Setting the claim of the proof i *)
  Lemma ipp_set_spec h i o P c : mipps h !! i = Some o ->
    let h' := MkMem (mpts h) (<[i := MkObj (io_LRs o) (io_a o) (io_b o) P c]> (mipps h)) (WProof i :: mwrites h) in
    ipp_set (C:=C) i P c h = Ret (tt, h') /\ ext [i] h h'.
  Proof.
    intros Ho h'. unfold ipp_set. rewrite Ho. split; [reflexivity|]. split; cbn.
    - done.
    - intros j oj Hj. destruct (decide (j = i)) as [->|Hn].
      + rewrite list_lookup_insert by (eapply lookup_lt_Some; exact Ho). eexists. split; [reflexivity|]. cbn.
        assert (oj = o) as -> by (pose proof (eq_trans (eq_sym Ho) Hj) as Hoj; injection Hoj; auto). split_and!; try reflexivity. intros Hni. exfalso. apply Hni. set_solver.
      + rewrite list_lookup_insert_ne by (intros ->; apply Hn; reflexivity). exists oj. auto.
    - exists [WProof i]. split; [reflexivity|]. constructor; [left; set_solver|constructor].
  Qed.
  Lemma runs_ipp_set h i (pf : IPProof C) P Pv c : core h i pf -> val h P Pv ->
    runs (ipp_set i P c) h (Ret (MkIPP (ipp_LRs pf) (ipp_a pf) (ipp_b pf) Pv c)) (fun _ h' p => ext [i] h h' /\ whole h' i p).
  Proof.
    intros (o & Ho & HL & Ha & Hb) HP. destruct (ipp_set_spec h i o P c Ho) as [E X]. eexists _, _. split; [exact E|].
    split; [exact X|]. eexists. split; [cbn; apply list_lookup_insert; eapply lookup_lt_Some; exact Ho|]. cbn. split_and!; auto.
  Qed.

  (** ** bp/ir.go *)
  Lemma runs_appendV h x V (Vv : G1 C) : val h V Vv ->
    runs (m_appendVToChallenge x V) h (Ret (appendVToChallenge x Vv)) (fun a h' b => h' = h /\ a = b).
  Proof. intros H. unfold m_appendVToChallenge. rd @runs_Bytes. apply runs_ret. auto. Qed.

  Definition rel_opt (h : mem) (o : option loc) (o' : option (G1 C)) : Prop :=
    match o, o' with Some l, Some v => val h l v | None, None => True | _, _ => False end.
  Lemma runs_iv_loop h p (q : bpPP C) Δ Δv n G Gv prevV prevVv xs fV fVv vF :
    mb_Digest p = bp_Digest q -> Forall2 (val3 h) Δ Δv -> vals h G Gv -> val h prevV prevVv -> rel_opt h fV fVv ->
    runs (m_iv_loop p Δ n G prevV xs fV vF) h (iv_loop q Δv n Gv prevVv xs fVv vF) (fun e h' e' => ext [] h h' /\ e = e').
  Proof.
    intros HD. revert h Δv n G Gv prevV prevVv xs fV fVv.
    induction Δ as [|[[A B] V] Δ IH]; intros h Δv n G Gv prevV prevVv xs fV fVv HΔ HG HpV HfV;
      pose proof (ext_refl [] h) as E0; (inversion HΔ as [|? [[Av Bv] Vv] ? Δv' (HA & HB & HV) HΔ']; subst);
      cbn [m_iv_loop iv_loop]; (destruct n as [|n]).
    1,3: eapply runs_bind; [eapply runs_idx; sd|]; cbn beta; intros G0 ? G0v _ [-> VG0];
      eapply runs_step; [eapply runs_Mul; sd|]; cbn beta; intros t h1 T;
      destruct fV as [l|], fVv as [v|]; cbn in HfV; try contradiction; [|reflexivity];
      fin T; rd @runs_Equals; apply runs_if; intros _; apply runs_ret; auto.
    - reflexivity.
    - cbn [fst snd] in *. rewrite HD. rd @runs_randomOracle. rd @runs_appendV. pu x.
      start S AS. tmul. add AS. clear T. add AS. fin AS. rd @runs_Equals.
      apply runs_if; intros _; [|apply runs_ret; auto].
      ix @runs_slice_to GL GLv VGL. ix @runs_slice_from GR GRv VGR.
      news @runs_G1v_Mul tg. new @runs_G1v_Add G' G'v.
      eapply runs_post; [eapply IH; try sd; cbn; sd|].
      cbn beta. intros e hz e' _ [E ->]. split; [eapply ext_trans; eassumption|reflexivity].
  Qed.
  Lemma runs_IterativeVerify h p (q : bpPP C) V Vv Δ Δv vF : rel_bp h p q -> val h V Vv -> Forall2 (val3 h) Δ Δv ->
    runs (m_IterativeVerify p V Δ vF) h (IterativeVerify q Vv Δv vF) (fun e h' e' => ext [] h h' /\ e = e').
  Proof.
    intros (HD & HG & _ & _) HV HΔ. unfold m_IterativeVerify, IterativeVerify. rewrite (vals_length _ _ _ HG).
    pu p2. apply runs_check. intros _. apply runs_iv_loop; try assumption. exact I.
  Qed.

  Lemma runs_ir_loop fuel h p (q : bpPP C) n G Gv v V Vv Δ Δv xs :
    zero_ok h -> mb_Digest p = bp_Digest q -> Forall2 (val3 h) Δ Δv -> vals h G Gv -> val h V Vv ->
    runs (m_ir_loop fuel p n G v V Δ xs) h (ir_loop fuel q n Gv v Vv Δv xs)
      (fun a h' b => ext [] h h' /\ Forall2 (val3 h') a.1.1 b.1.1 /\ a.1.2 = b.1.2 /\ a.2 = b.2).
  Proof.
    intros Z HD. revert h Z n G Gv v V Vv Δ Δv xs. induction fuel as [|fuel IH]; intros h Z n G Gv v V Vv Δ Δv xs HΔ HG HV;
      (destruct n as [|n]; cbn [m_ir_loop ir_loop];
       [apply runs_ret; cbn; split_and!; [apply ext_refl|exact HΔ|reflexivity..]|]); [reflexivity|].
    pose proof (ext_refl [] h) as E0.
    ix @runs_slice_to GL GLv VGL. ix @runs_slice_from GR GRv VGR. pu vL. pu vR.
    apply runs_assoc. new @runs_MulV t tv. eapply runs_bind; [eapply runs_Sum; sd|]. cbn beta. intros A ? Av _ TA. fin TA.
    apply runs_assoc. new @runs_MulV t' tv'. eapply runs_bind; [eapply runs_Sum; sd|]. cbn beta. intros B ? Bv _ TB. fin TB.
    rewrite HD. rd @runs_randomOracle. rd @runs_appendV. pu x.
    news @runs_G1v_Mul s. new @runs_G1v_Add G' G'v. pu v'.
    apply runs_assoc. new @runs_MulV t'' tv''. eapply runs_bind; [eapply runs_Sum; sd|]. cbn beta. intros V' ? V'v _ TV. fin TV.
    eapply runs_post; [eapply IH; try sd|].
    - apply Forall2_app; [assumption|]. constructor; [|constructor]. split_and!; cbn; assumption.
    - cbn beta. intros a hz b _ (E & K1 & K2 & K3). split_and!; try assumption. eapply ext_trans; eassumption.
  Qed.
  Lemma runs_IterativeReduce h p (q : bpPP C) v V Vv : zero_ok h -> rel_bp h p q -> val h V Vv ->
    runs (m_IterativeReduce p v V) h (IterativeReduce q v Vv)
      (fun a h' b => ext [] h h' /\ Forall2 (val3 h') a.1.1 b.1.1 /\ a.1.2 = b.1.2 /\ a.2 = b.2).
  Proof.
    intros Z (HD & HG & _ & _) HV. unfold m_IterativeReduce, IterativeReduce. rewrite (vals_length _ _ _ HG).
    pu p2. apply runs_check. intros _. eapply runs_bind; [eapply runs_ir_loop; try sd; constructor|]. cbn beta.
    intros [[Δ xs] v'] hz [[Δv xs'] v''] _ (E & K1 & K2 & K3). cbn [fst snd] in *. subst xs' v''.
    apply runs_check. intros _. pu v0. apply runs_ret. cbn. auto.
  Qed.
End Ipa.
