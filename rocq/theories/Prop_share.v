(** Property C92: several threads verify at the same time. *)
From Verif Require Import Model_share Prop_conc Prop_accept Prop_liability Prop_sum Sum_facts Toy Ipa_facts Common_facts.
Local Open Scope Zr_scope.

Section Sim.
  Context {C : Curve}.
  (** What every assignment to the claim of object o assigns *)
  Variable (fC : nat -> Zr) (fP : nat -> G1 C).

  (** Which fields (false: C, true: P) are known to have been assigned to *)
  Definition known : Type := nat -> bool -> Prop.
  Definition none : known := fun _ _ => False.
  Definition also (W : known) (o : nat) (b : bool) : known := fun o' b' => W o' b' \/ (o' = o /\ b' = b).
  Definition agree (s : claims C) (W : known) : Prop := forall o, (W o false -> cl_C s o = fC o) /\ (W o true -> cl_P s o = fP o).

  (** The call assigns what everybody else does, reads only what has been assigned, and its result is r. *)
  Fixpoint det {A} (W : known) (c : lib C A) (r : res A) : Prop :=
    match c with
    | LDone r' => r' = r
    | LSetC o v k => v = fC o /\ det (also W o false) k r
    | LSetP o v k => v = fP o /\ det (also W o true) k r
    | LGetC o k => W o false /\ det W (k (fC o)) r
    | LGetP o k => W o true /\ det W (k (fP o)) r
    end.
  Lemma det_weaken {A} (c : lib C A) r : forall W W' : known, (forall o b, W o b -> W' o b) -> det W c r -> det W' c r.
  Proof.
    induction c as [r'|o v k IH|o v k IH|o k IH|o k IH]; intros W W' H D; cbn in *; [exact D| | | |].
    - destruct D as [E D]. split; [exact E|]. apply (IH (also W o false)); [|exact D]. intros o' b' [X|X]; [left; auto|right; exact X].
    - destruct D as [E D]. split; [exact E|]. apply (IH (also W o true)); [|exact D]. intros o' b' [X|X]; [left; auto|right; exact X].
    - destruct D as [E D]. split; [auto|]. apply (IH _ W); [exact H|exact D].
    - destruct D as [E D]. split; [auto|]. apply (IH _ W); [exact H|exact D].
  Qed.
  Lemma det_bind {A B} (c : lib C A) (k : A -> lib C B) r (q : A -> res B) : forall W,
    det W c r -> (forall a, det none (k a) (q a)) -> det W (lbind c k) (rbind r q).
  Proof.
    induction c as [r'|o v c' IH|o v c' IH|o c' IH|o c' IH]; intros W D K; cbn in *.
    - subst r'. destruct r as [a| |]; cbn; [|reflexivity..]. apply (det_weaken _ _ none); [intros ? ? []|apply K].
    - destruct D as [E D]. split; [exact E|]. apply IH; [exact D|exact K].
    - destruct D as [E D]. split; [exact E|]. apply IH; [exact D|exact K].
    - destruct D as [E D]. split; [exact E|]. apply IH; [exact D|exact K].
    - destruct D as [E D]. split; [exact E|]. apply IH; [exact D|exact K].
  Qed.
  (** The continuation may use what the first part has computed. *)
  Lemma det_done {A B} W (r : res A) (k : A -> lib C B) (q : A -> res B) :
    (forall a, r = Ret a -> det W (k a) (q a)) -> det W (lbind (LDone r) k) (rbind r q).
  Proof. intros K. destruct r as [a| |]; cbn; [apply K; reflexivity|reflexivity..]. Qed.
  Lemma det_claim W o c P π pp : fC o = c -> fP o = P ->
    det W (L_claim o c P π pp) (IPP_Verify (MkIPP (ipp_LRs π) (ipp_a π) (ipp_b π) P c) pp).
  Proof.
    intros <- <-. unfold L_claim. cbn [det]. split; [reflexivity|]. split; [reflexivity|].
    split; [right; split; reflexivity|]. split; [left; right; split; reflexivity|]. reflexivity.
  Qed.

  (** ** Threads *)
  Fixpoint gsim (W : known) (g : fgor C) (h : goroutine VMem) : Prop :=
    match g with
    | @FCall _ A c k => exists (r : res A) k', h = GCall r k' /\ det W c r /\ forall a, r = Ret a -> gsim none (k a) (k' a)
    | FAct a k => exists k', h = GAct a k' /\ gsim none k k'
    | FEnd => h = GEnd
    end.
  Fixpoint msim (W : known) (t : fmain C) (u : main VMem error) : Prop :=
    match t with
    | @FMCall _ A c k => exists (r : res A) k', u = MCall r k' /\ det W c r /\ forall a, r = Ret a -> msim none (k a) (k' a)
    | FMGo g k => exists g' k', u = MGo g' k' /\ gsim none g g' /\ msim none k k'
    | FMAct a k => exists k', u = MAct a k' /\ msim none k k'
    | @FMRead _ A f k => exists k', u = MRead f k' /\ forall a, msim none (k a) (k' a)
    | FMReturn r => u = MReturn r
    end.
  Definition gok (s : claims C) (g : fgor C) (h : goroutine VMem) : Prop := exists W, agree s W /\ gsim W g h.
  Definition mok (s : claims C) (t : fmain C) (u : main VMem error) : Prop := exists W, agree s W /\ msim W t u.
  Lemma agree_none s : agree s none.
  Proof. intros o. split; intros []. Qed.
  Lemma gok_none s g h : gsim none g h -> gok s g h.
  Proof. intros H. exists none. split; [apply agree_none|exact H]. Qed.
  Lemma mok_none s t u : msim none t u -> mok s t u.
  Proof. intros H. exists none. split; [apply agree_none|exact H]. Qed.

  (** Every assignment keeps what is known: it assigns what has been assigned before. *)
  Definition kept (s s' : claims C) : Prop := forall W, agree s W -> agree s' W.
  Lemma kept_refl s : kept s s.
  Proof. intros W H. exact H. Qed.
  Lemma agree_setC s W o : agree s W -> agree (set_C o (fC o) s) (also W o false).
  Proof.
    intros H o'. destruct (H o') as [H1 H2]. split; intros [X|[X Y]]; try discriminate Y; cbn [set_C cl_C cl_P].
    - destruct (Nat.eqb_spec o' o) as [->|]; [reflexivity|exact (H1 X)].
    - subst o'. rewrite Nat.eqb_refl. reflexivity.
    - exact (H2 X).
  Qed.
  Lemma agree_setP s W o : agree s W -> agree (set_P o (fP o) s) (also W o true).
  Proof.
    intros H o'. destruct (H o') as [H1 H2]. split; intros [X|[X Y]]; try discriminate Y; cbn [set_P cl_C cl_P].
    - exact (H1 X).
    - destruct (Nat.eqb_spec o' o) as [->|]; [reflexivity|exact (H2 X)].
    - subst o'. rewrite Nat.eqb_refl. reflexivity.
  Qed.
  Lemma agree_less s W o b : agree s (also W o b) -> agree s W.
  Proof. intros H o'. destruct (H o') as [H1 H2]. split; intros X; [apply H1|apply H2]; left; exact X. Qed.
  Lemma kept_setC s o : kept s (set_C o (fC o) s).
  Proof. intros W H. eapply agree_less, agree_setC, H. Qed.
  Lemma kept_setP s o : kept s (set_P o (fP o) s).
  Proof. intros W H. eapply agree_less, agree_setP, H. Qed.

  Lemma lib_step_det {A} (c : lib C A) s W r : agree s W -> det W c r ->
    match lib_step c s with
    | inl r' => r' = r
    | inr (c', s') => kept s s' /\ exists W', agree s' W' /\ det W' c' r
    end.
  Proof.
    intros HA D. destruct c as [r'|o v k|o v k|o k|o k]; cbn in *.
    - exact D.
    - destruct D as [-> D]. split; [apply kept_setC|]. exists (also W o false). split; [apply agree_setC; exact HA|exact D].
    - destruct D as [-> D]. split; [apply kept_setP|]. exists (also W o true). split; [apply agree_setP; exact HA|exact D].
    - destruct D as [X D]. split; [apply kept_refl|]. exists W. split; [exact HA|]. rewrite (proj1 (HA o) X). exact D.
    - destruct D as [X D]. split; [apply kept_refl|]. exists W. split; [exact HA|]. rewrite (proj2 (HA o) X). exact D.
  Qed.
  Lemma gsim_step g h m s : gok s g h ->
    match fgor_step g m s with
    | Blocked => gor_step h m = Blocked
    | Crash => gor_step h m = Crash
    | Next (g', m', s') => kept s s' /\ ((gok s' g' h /\ m' = m) \/ exists h', gor_step h m = Next (h', m') /\ gok s' g' h')
    end.
  Proof.
    intros (W & HA & H). destruct g as [A c k|a k|].
    - cbn in H. destruct H as (r & k' & -> & D & K). pose proof (lib_step_det c s W r HA D) as L. cbn [fgor_step].
      destruct (lib_step c s) as [r'|[c' s']].
      + subst r'. destruct r as [a| |]; cbn; [|reflexivity..]. split; [apply kept_refl|]. right. exists (k' a). split; [reflexivity|]. apply gok_none, K. reflexivity.
      + destruct L as (L1 & W' & L2 & L3). split; [exact L1|]. left. split; [|reflexivity]. exists W'. split; [exact L2|]. cbn. exists r, k'. split; [reflexivity|]. split; [exact L3|exact K].
    - cbn in H. destruct H as (k' & -> & K). cbn. destruct (a m) as [| |m']; [reflexivity..|]. split; [apply kept_refl|]. right. exists k'. split; [reflexivity|]. apply gok_none, K.
    - cbn in H. subst h. cbn. reflexivity.
  Qed.
  Lemma msim_step t u gs hs m s : mok s t u -> Forall2 (gok s) gs hs ->
    match fmain_step t gs m s with
    | Blocked => main_step u hs m = Blocked
    | Crash => main_step u hs m = Crash
    | Next (t', gs', m', s') => kept s s' /\
        ((mok s' t' u /\ m' = m /\ gs' = gs) \/ exists u' hs', main_step u hs m = Next (u', hs', m') /\ mok s' t' u' /\ Forall2 (gok s') gs' hs')
    end.
  Proof.
    intros (W & HA & H) HG. destruct t as [A c k|g k|a k|A f k|r].
    - cbn in H. destruct H as (r & k' & -> & D & K). pose proof (lib_step_det c s W r HA D) as L. cbn [fmain_step].
      destruct (lib_step c s) as [r'|[c' s']].
      + subst r'. destruct r as [a| |]; cbn; [|reflexivity..]. split; [apply kept_refl|]. right. exists (k' a), hs. split; [reflexivity|]. split; [apply mok_none, K; reflexivity|exact HG].
      + destruct L as (L1 & W' & L2 & L3). split; [exact L1|]. left. split; [|split; reflexivity]. exists W'. split; [exact L2|]. cbn. exists r, k'. split; [reflexivity|]. split; [exact L3|exact K].
    - cbn in H. destruct H as (g' & k' & -> & G & K). cbn. split; [apply kept_refl|]. right. exists k', (hs ++ [g']). split; [reflexivity|]. split; [apply mok_none, K|].
      apply Forall2_app; [exact HG|]. constructor; [apply gok_none, G|constructor].
    - cbn in H. destruct H as (k' & -> & K). cbn. destruct (a m) as [| |m']; [reflexivity..|]. split; [apply kept_refl|]. right. exists k', hs. split; [reflexivity|]. split; [apply mok_none, K|exact HG].
    - cbn in H. destruct H as (k' & -> & K). cbn. split; [apply kept_refl|]. right. exists (k' (f m)), hs. split; [reflexivity|]. split; [apply mok_none, K|exact HG].
    - cbn in H. subst u. cbn. reflexivity.
  Qed.

  (** ** Calls *)
  (** A call looks like a state of the process of Model_conc.v. *)
  Definition csim (s : claims C) (c : call C) (p : process VMem error) : Prop :=
    exists u hs, p = Run u hs (ca_mem c) /\ mok s (ca_main c) u /\ Forall2 (gok s) (ca_gors c) hs.
  Lemma csim_kept s s' c p : kept s s' -> csim s c p -> csim s' c p.
  Proof.
    intros K (u & hs & -> & (W & HA & HM) & HG). exists u, hs. split; [reflexivity|]. split; [exists W; split; [apply K, HA|exact HM]|].
    eapply Forall2_impl; [exact HG|]. intros g h (W' & HA' & H'). exists W'. split; [apply K, HA'|exact H'].
  Qed.
  Lemma csim_step s c p s' c' : csim s c p -> call_step c s c' s' -> kept s s' /\ exists p', rtc step p p' /\ csim s' c' p'.
  Proof.
    intros (u & hs & -> & HM & HG) HS. inversion HS as [t gs m s0 t' gs' m' s1 E|t gs m s0 i g g' m' s1 Hi E]; subst; cbn [ca_main ca_gors ca_mem] in *.
    - pose proof (msim_step t u gs hs m s HM HG) as X. rewrite E in X. destruct X as (K & [(M1 & -> & ->)|(u' & hs' & E' & M1 & G1')]).
      + split; [exact K|]. eexists. split; [apply rtc_refl|]. exists u, hs. split; [reflexivity|]. split; [exact M1|]. cbn [ca_gors].
        eapply Forall2_impl; [exact HG|]. intros g h (W' & HA' & H'). exists W'. split; [apply K, HA'|exact H'].
      + split; [exact K|]. exists (Run u' hs' m'). split; [apply rtc_once, step_main, E'|]. exists u', hs'. split; [reflexivity|]. split; [exact M1|exact G1'].
    - destruct (Forall2_lookup_l _ _ _ _ _ HG Hi) as (h & Hh & Hgh). pose proof (gsim_step g h m s Hgh) as X. rewrite E in X. destruct X as (K & X). split; [exact K|].
      assert (HG' : Forall2 (gok s') gs hs). { eapply Forall2_impl; [exact HG|]. intros g1 h1 (W' & HA' & H'). exists W'. split; [apply K, HA'|exact H']. }
      assert (HM' : mok s' t u). { destruct HM as (W' & HA' & H'). exists W'. split; [apply K, HA'|exact H']. }
      destruct X as [(G1' & ->)|(h' & E' & G1')].
      + eexists. split; [apply rtc_refl|]. exists u, hs. split; [reflexivity|]. split; [exact HM'|]. cbn [ca_gors].
        rewrite <- (list_insert_id hs i h Hh). apply Forall2_insert; [exact HG'|exact G1'].
      + exists (Run u (<[i := h']> hs) m'). split; [apply rtc_once; eapply step_gor; [exact Hh|exact E']|]. exists u, (<[i := h']> hs). split; [reflexivity|]. split; [exact HM'|].
        cbn [ca_gors]. apply Forall2_insert; [exact HG'|exact G1'].
  Qed.
  Lemma csim_crash s c p : csim s c p -> call_crash c s -> step p Crashed.
  Proof.
    intros (u & hs & -> & HM & HG) [E|(i & g & Hi & E)].
    - pose proof (msim_step _ u _ hs (ca_mem c) s HM HG) as X. rewrite E in X. apply step_main_crash, X.
    - destruct (Forall2_lookup_l _ _ _ _ _ HG Hi) as (h & Hh & Hgh). pose proof (gsim_step g h (ca_mem c) s Hgh) as X. rewrite E in X. eapply step_gor_crash; [exact Hh|exact X].
  Qed.
  (** A call can take a step if the process can. *)
  Lemma csim_live s c p p' : csim s c p -> step p p' -> call_crash c s \/ exists c' s', call_step c s c' s'.
  Proof.
    intros (u & hs & -> & HM & HG) HS. destruct c as [t gs m]. cbn [ca_main ca_gors ca_mem] in *.
    assert (B : forall x, main_step u hs m = x -> x <> Blocked -> call_crash (MkCall t gs m) s \/ exists c' s', call_step (MkCall t gs m) s c' s').
    { intros x E N. pose proof (msim_step t u gs hs m s HM HG) as X. destruct (fmain_step t gs m s) as [| |[[[t' gs'] m'] s']] eqn:E'.
      - congruence.
      - left. left. exact E'.
      - right. eexists _, _. apply call_main. exact E'. }
    assert (Bg : forall i h x, hs !! i = Some h -> gor_step h m = x -> x <> Blocked -> call_crash (MkCall t gs m) s \/ exists c' s', call_step (MkCall t gs m) s c' s').
    { intros i h x Hi E N. destruct (Forall2_lookup_r _ _ _ _ _ HG Hi) as (g & Hg & Hgh). pose proof (gsim_step g h m s Hgh) as X. destruct (fgor_step g m s) as [| |[[g' m'] s']] eqn:E'.
      - congruence.
      - left. right. exists i, g. split; [exact Hg|exact E'].
      - right. eexists _, _. eapply call_gor; [exact Hg|exact E']. }
    inversion HS; subst.
    - eapply B; [eassumption|discriminate].
    - eapply B; [eassumption|discriminate].
    - eapply Bg; [eassumption..|discriminate].
    - eapply Bg; [eassumption..|discriminate].
  Qed.

  (** ** The library calls *)
  Lemma VerifyRange_front (pp : RPPP C) rp V : VerifyRange pp rp V =
    rbind (range_front pp rp V) (fun r => match r with
    | inl err => Ret (Err err)
    | inr (P, ipaPP, w) => rbind (IPP_Verify (MkIPP (ipp_LRs (rp_Π rp)) (ipp_a (rp_Π rp)) (ipp_b (rp_Π rp)) P (rp_c rp)) ipaPP) (range_back pp rp w)
    end).
  Proof.
    unfold VerifyRange, VerifyRange_st, range_front, range_back. cbv zeta.
    repeat match goal with
    | |- context [rbind (rbind ?a _) _] => destruct a; cbn [rbind]; [|reflexivity..]
    | |- context [rbind (match ?a with inl _ => _ | inr _ => _ end) _] => destruct a as [[? ?]|?]; cbn [rbind snd]; [|reflexivity]
    | |- context [rbind (match ?a with nil_error => _ | Err _ => _ end) _] => destruct a; cbn [rbind snd]; [|reflexivity]
    end.
    destruct (geqb _ _); reflexivity.
  Qed.
  Definition claim_range (pp : RPPP C) (rp : RangeProof C) (V : G1 C) : Zr * G1 C :=
    (rp_c rp, match range_front pp rp V with Ret (inr (P, _, _)) => P | _ => gzero end).
  Lemma det_VerifyRange pp rp o V : (fC o, fP o) = claim_range pp rp V -> det none (L_VerifyRange pp rp o V) (VerifyRange pp rp V).
  Proof.
    intros HF. rewrite VerifyRange_front. unfold L_VerifyRange. apply det_done. intros [err|[[P ipaPP] w]] E; [reflexivity|].
    apply det_bind; [|intros e; reflexivity]. unfold claim_range in HF. rewrite E in HF. injection HF as H1 H2. apply det_claim; [exact H1|exact H2].
  Qed.

  Definition claim_sum (pp : sumPP C) (proof : sumProof C) (V : G1 C) : Zr * G1 C :=
    match sum_front proof pp V with Ret (c, P, _) => (c, P) | _ => (zr 0, gzero) end.
  Lemma sum_Verify_front (proof : sumProof C) pp V : sum_Verify proof pp V =
    rbind (sum_front proof pp V) (fun '(c, P, ipaPP) => IPP_Verify (MkIPP (ipp_LRs (sm_π proof)) (ipp_a (sm_π proof)) (ipp_b (sm_π proof)) P c) ipaPP).
  Proof.
    unfold sum_Verify, sum_front. cbv zeta.
    destruct (randomOracleCVW _ _ _); cbn [rbind]; [|reflexivity..]. destruct (sum_ipaPP pp); reflexivity.
  Qed.
  Lemma det_sum_Verify proof o pp V : (fC o, fP o) = claim_sum pp proof V -> det none (L_sum_Verify proof o pp V) (sum_Verify proof pp V).
  Proof.
    intros HF. rewrite sum_Verify_front. unfold L_sum_Verify. apply det_done. intros [[c P] ipaPP] E. unfold claim_sum in HF. rewrite E in HF. injection HF as H1 H2.
    apply det_claim; [exact H1|exact H2].
  Qed.
  Definition claim_sums (pp : sumPP C) (proof : sumProof C) (V : list (G1 C)) : Zr * G1 C :=
    match sum_aggr V with Ret VA => claim_sum pp proof VA | _ => (zr 0, gzero) end.
  Lemma det_sum_VerifyAggregated proof o pp V : (fC o, fP o) = claim_sums pp proof V ->
    det none (L_sum_VerifyAggregated proof o pp V) (sum_VerifyAggregated proof pp V).
  Proof.
    intros HF. assert (sum_VerifyAggregated proof pp V = rbind (sum_aggr V) (fun VA => sum_Verify proof pp VA)) as ->.
    { unfold sum_VerifyAggregated, sum_aggr. destruct (createHVZKChallenge _ _); cbn [rbind]; reflexivity. }
    unfold L_sum_VerifyAggregated. apply det_done. intros VA E. apply det_sum_Verify. unfold claim_sums in HF. rewrite E in HF. exact HF.
  Qed.

  (** The claim of the equality argument does not depend on the positions. *)
  Definition eq_P (e : Equalities C) (proof : AggProof C) : res (G1 C) :=
    let groupElements := ap_Vaggr proof ++ ap_Waggr proof ++ es_V e ++ es_W e in
    let! xl := es_RO e groupElements [] (pe_Digest (es_PP e)) 1%nat in
    let! x := idx xl 0 in
    let! ts := es_RO e (groupElements ++ [ap_U proof; ap_V proof]) [] (pe_Digest (es_PP e)) (2 * length (es_V e))%nat in
    let! te := Vec_Evens ts in let! to := Vec_Odds ts in
    let! b := Vec_Add te to in
    let! HB := rbind (G1v_MulV (pe_H (es_PP e)) b) G1v_Sum in
    Ret (gadd (gadd (gadd (gmul (ap_ρ proof) (pe_F (es_PP e))) (gmul x (ap_U proof))) (ap_V proof)) HB).
  Lemma eq_front_P e proof P bp : eq_front e proof = Ret (inr (P, bp)) -> eq_P e proof = Ret P.
  Proof.
    unfold eq_front, eq_P. cbv zeta. intros H.
    repeat match type of H with
    | rbind ?a _ = Ret _ => let E := fresh "E" in destruct a eqn:E; cbn [rbind] in H; try discriminate H; cbn [rbind]
    | (if ?b then _ else _) = Ret _ => destruct b; [|discriminate H]
    end.
    injection H as <- _. reflexivity.
  Qed.
  Lemma Equalities_Verify_front (e : Equalities C) proof : Equalities_Verify e proof =
    rbind (eq_front e proof) (fun r => match r with
    | inl err => Ret (Err err)
    | inr (P, bp) => IPP_Verify (MkIPP (ipp_LRs (ap_IPP proof)) (ipp_a (ap_IPP proof)) (ipp_b (ap_IPP proof)) P (ap_c proof)) bp
    end).
  Proof.
    unfold Equalities_Verify, eq_front. cbv zeta.
    repeat match goal with
    | |- context [rbind (rbind ?a _) (fun r => match r with inl _ => _ | inr _ => _ end)] => destruct a; cbn [rbind]; [|reflexivity..]
    end.
    destruct (geqb _ _); [|reflexivity].
    repeat match goal with
    | |- context [rbind (rbind ?a _) (fun r => match r with inl _ => _ | inr _ => _ end)] => destruct a; cbn [rbind]; [|reflexivity..]
    end. reflexivity.
  Qed.
  Definition claim_eq (pp : PolPP C) (lp : LiabilityProof C) : Zr * G1 C :=
    (ap_c (lp_Eq lp),
     match verify_equalities pp lp (replicate (length (lp_Digests lp)) 0%nat) with
     | Ret e => match eq_P e (lp_Eq lp) with Ret P => P | _ => gzero end
     | _ => gzero
     end).
  Lemma verify_equalities_path pp lp p p' e : length p = length p' -> verify_equalities pp lp p = Ret e ->
    exists e', verify_equalities pp lp p' = Ret e' /\ forall proof, eq_P e' proof = eq_P e proof.
  Proof.
    intros HL. unfold verify_equalities. rewrite <- HL. cbv zeta. generalize (pad_to_pow2 (length p - 1)).
    generalize (Commit (po_PPPP pp) (replicate (po_Fanout pp + 2) (IntToZr 0))).
    generalize (mapM (fun i => idx (lp_V lp) i) (seq 0 (length p - 1))). generalize (mapM (fun i => idx (lp_V lp) (i + 1)) (seq 0 (length p - 1))).
    generalize (length p - 1)%nat. intros k r1 r2 r3 r4 H. destruct r2 as [V| |]; [|discriminate H..]. destruct r1 as [W| |]; [|discriminate H..].
    destruct r3 as [z| |]; [|discriminate H..]. destruct r4 as [m| |]; [|discriminate H..].
    cbn [rbind] in H |- *. injection H as <-. eexists. split; [reflexivity|]. intros proof. unfold eq_P. cbn [es_RO es_V es_W es_PP]. reflexivity.
  Qed.
  Lemma det_Equalities_Verify pp lp p e o : (fC o, fP o) = claim_eq pp lp -> length p = length (lp_Digests lp) -> verify_equalities pp lp p = Ret e ->
    det none (L_Equalities_Verify e (lp_Eq lp) o) (Equalities_Verify e (lp_Eq lp)).
  Proof.
    intros HF HL HE. rewrite Equalities_Verify_front. unfold L_Equalities_Verify. apply det_done. intros [err|[P bp]] E; [reflexivity|].
    destruct (verify_equalities_path pp lp p (replicate (length (lp_Digests lp)) 0%nat) e) as (e' & He' & X); [rewrite replicate_length; exact HL|exact HE|].
    unfold claim_eq in HF. rewrite He', X, (eq_front_P _ _ _ _ E) in HF. injection HF as H1 H2. apply det_claim; [exact H1|exact H2].
  Qed.
  Lemma det_verify_arguments pp lp ob p : (fC (ob_sum ob), fP (ob_sum ob)) = claim_sums (po_SAPP pp) (lp_sum lp) (lp_V lp) ->
    (fC (ob_eq ob), fP (ob_eq ob)) = claim_eq pp lp -> length p = length (lp_Digests lp) ->
    det none (L_verify_arguments pp lp ob p) (verify_arguments pp lp p).
  Proof.
    intros HS HE HL. unfold L_verify_arguments, verify_arguments. apply det_done. intros [|err] _; [|reflexivity].
    apply det_bind; [apply det_sum_VerifyAggregated, HS|]. intros [|err]; [|reflexivity].
    apply det_done. intros e He. apply det_bind; [eapply det_Equalities_Verify; eassumption|]. intros [|err]; reflexivity.
  Qed.

  (** ** Verify *)
  Section Job.
    Variable (pp : PolPP C) (lp : LiabilityProof C) (ob : objects).
    Hypothesis HS : (fC (ob_sum ob), fP (ob_sum ob)) = claim_sums (po_SAPP pp) (lp_sum lp) (lp_V lp).
    Hypothesis HE : (fC (ob_eq ob), fP (ob_eq ob)) = claim_eq pp lp.
    Hypothesis HR : forall i rp V, lp_RangeProofs lp !! i = Some rp -> lp_V lp !! i = Some V ->
      let o := default 0%nat (ob_ranges ob !! i) in (fC o, fP o) = claim_range (po_RPPP pp) rp V.

    Lemma gsim_range i rp V : lp_RangeProofs lp !! i = Some rp -> lp_V lp !! i = Some V ->
      gsim none (f_verifyRangeProof pp rp (default 0%nat (ob_ranges ob !! i)) V) (verifyRangeProof pp rp V).
    Proof.
      intros H1 H2. unfold f_verifyRangeProof, verifyRangeProof. cbn [gsim]. eexists _, _. split; [reflexivity|]. split; [apply det_VerifyRange, HR; assumption|].
      intros [|err] _; cbn [gsim]; eauto 8.
    Qed.
    Lemma msim_tail p : length p = length (lp_Digests lp) -> msim none (f_tail pp lp ob p) (par_tail pp lp p).
    Proof.
      intros HL. unfold f_tail, par_tail. cbn [msim]. eexists _, _. split; [reflexivity|]. split; [apply det_verify_arguments; assumption|].
      intros [|err] _; cbn [msim]; [|reflexivity]. eexists. split; [reflexivity|]. eexists. split; [reflexivity|].
      intros [|err]; cbn [msim]; [|reflexivity]. eexists _, _. split; [reflexivity|]. split; [reflexivity|]. intros e _. reflexivity.
    Qed.
    Lemma verify_args_lookup p i rp V : verify_args lp p i = Ret (rp, V) -> lp_RangeProofs lp !! i = Some rp /\ lp_V lp !! i = Some V.
    Proof.
      unfold verify_args. intros H. apply rbind_inv in H as (x & _ & H). apply rbind_inv in H as (rp' & H1 & H). apply rbind_inv in H as (V' & H2 & H). injection H as -> ->.
      split; [revert H1|revert H2]; unfold idx; destruct (_ !! _); congruence.
    Qed.
    Lemma msim_loop p is : length p = length (lp_Digests lp) -> msim none (f_loop pp lp ob p is) (par_loop pp lp p is).
    Proof.
      intros HL. induction is as [|i is IH]; [apply msim_tail, HL|]. cbn [f_loop par_loop msim]. eexists _, _. split; [reflexivity|]. split; [reflexivity|].
      intros [rp V] E. apply verify_args_lookup in E as [E1 E2]. cbn [msim]. eexists _, _. split; [reflexivity|]. split; [apply gsim_range; assumption|].
      eexists _, _. split; [reflexivity|]. split; [reflexivity|]. intros [|err] _; [exact IH|reflexivity].
    Qed.
    Lemma msim_Verify id V W id2path : msim none (f_Verify lp ob pp id V W id2path) (par_Verify lp pp id V W id2path).
    Proof.
      unfold f_Verify, par_Verify. cbn [msim]. eexists _, _. split; [reflexivity|]. split; [reflexivity|]. intros p _.
      eexists _, _. split; [reflexivity|]. split; [reflexivity|]. intros [|err] H; cbn [msim]; [|reflexivity]. eexists. split; [reflexivity|].
      apply msim_loop. unfold verify_header in H. destruct (_ && _) eqn:B; [|discriminate H]. apply andb_true_iff in B as [_ B]. apply Nat.eqb_eq in B. symmetry. exact B.
    Qed.
  End Job.
End Sim.

(** ** No schedule goes on forever *)
Section Wf.
  Context {C : Curve}.
  Definition fgnext (g' g : fgor C) : Prop := exists m s m' s', fgor_step g m s = Next (g', m', s').
  Lemma fgnext_wf g : Acc fgnext g.
  Proof.
    induction g as [A c k IH|a k IH|].
    - induction c as [r|o v c IHc|o v c IHc|o c IHc|o c IHc]; constructor; intros g' (m & s & m' & s' & H); cbn in H.
      + destruct r; try discriminate H. injection H as <- <- <-. apply IH.
      + injection H as <- <- <-. exact IHc.
      + injection H as <- <- <-. exact IHc.
      + injection H as <- <- <-. apply IHc.
      + injection H as <- <- <-. apply IHc.
    - constructor. intros g' (m & s & m' & s' & H). cbn in H. destruct (a m); try discriminate H. injection H as <- <- <-. exact IH.
    - constructor. intros g' (m & s & m' & s' & H). discriminate H.
  Qed.
  (** One entry of a list takes a step. *)
  Definition one {X} (R : X -> X -> Prop) (l' l : list X) : Prop := exists i x x', l !! i = Some x /\ R x' x /\ l' = <[i := x']> l.
  Lemma one_wf {X} (R : X -> X -> Prop) l : (forall x, Acc R x) -> Acc (one R) l.
  Proof.
    intros HR. induction l as [|g gs IH].
    - constructor. intros gs' (i & g & g' & H & _). discriminate H.
    - revert gs IH. induction (HR g) as [g _ IHg]. intros gs Hgs. pose proof Hgs as Hgs0. induction Hgs as [gs Hgs' IHgs].
      constructor. intros gs' (i & x & x' & Hx & Hn & ->). destruct i as [|i]; cbn in Hx |- *.
      + injection Hx as ->. apply IHg; [exact Hn|exact Hgs0].
      + assert (Hl : one R (<[i := x']> gs) gs) by (exists i, x, x'; done). apply IHgs; [exact Hl|apply Hgs'; exact Hl].
  Qed.
  Definition cnext (c' c : call C) : Prop := exists s s', call_step c s c' s'.
  Lemma cnext_wf c : Acc cnext c.
  Proof.
    destruct c as [t gs m]. revert gs m.
    assert (W : forall t, (forall gs m s t' gs' m' s', fmain_step t gs m s = Next (t', gs', m', s') -> Acc cnext (MkCall t' gs' m')) ->
      forall gs m, Acc cnext (MkCall t gs m)).
    { clear t. intros t Hk gs. induction (one_wf fgnext gs fgnext_wf) as [gs _ IH]. intros m. constructor. intros c' (s & s' & H). inversion H; subst.
      - eapply Hk; eassumption.
      - apply IH. exists i, g, g'. split; [done|]. split; [|done]. exists m, s, m', s'. done. }
    induction t as [A c k IH|g k IH|a k IH|A f k IH|r].
    - induction c as [r|o v c IHc|o v c IHc|o c IHc|o c IHc]; apply W; intros gs m s t' gs' m' s' H; cbn in H.
      + destruct r; try discriminate H. injection H as <- <- <- <-. apply IH.
      + injection H as <- <- <- <-. apply IHc.
      + injection H as <- <- <- <-. apply IHc.
      + injection H as <- <- <- <-. apply IHc.
      + injection H as <- <- <- <-. apply IHc.
    - apply W; intros gs m s t' gs' m' s' H; cbn in H. injection H as <- <- <- <-. apply IH.
    - apply W; intros gs m s t' gs' m' s' H; cbn in H. destruct (a m); try discriminate H. injection H as <- <- <- <-. apply IH.
    - apply W; intros gs m s t' gs' m' s' H; cbn in H. injection H as <- <- <- <-. apply IH.
    - apply W; intros gs m s t' gs' m' s' H; cbn in H. discriminate H.
  Qed.
  Lemma sys_step_wf (x : system C) : Acc (fun x' x => sys_step x x') x.
  Proof.
    assert (G0 : Acc (fun x' x => sys_step (C:=C) x x') SysCrashed) by (constructor; intros c' H; inversion H).
    destruct x as [cs s|]; [|exact G0]. revert s. induction (one_wf cnext cs cnext_wf) as [cs _ IH]. intros s. constructor. intros x' H. inversion H; subst.
    - apply IH. exists j, c, c'. split; [assumption|]. split; [|reflexivity]. eexists _, _. eassumption.
    - exact G0.
  Qed.
End Wf.

(** ** Which claims are assigned *)
Section Jobs.
  Context {C : Curve}.
  Implicit Types (pp : PolPP C) (j : job C) (jobs : list (job C)).
  Definition objs_of j : list nat := ob_sum (jb_ob j) :: ob_eq (jb_ob j) :: ob_ranges (jb_ob j).
  Definition uses pp j : list (nat * (Zr * G1 C)) :=
    (ob_sum (jb_ob j), claim_sums (po_SAPP pp) (lp_sum (jb_lp j)) (lp_V (jb_lp j))) ::
    (ob_eq (jb_ob j), claim_eq pp (jb_lp j)) ::
    zip (ob_ranges (jb_ob j)) (zip_with (claim_range (po_RPPP pp)) (lp_RangeProofs (jb_lp j)) (lp_V (jb_lp j))).
  Lemma zip_in {A B} (l : list A) (k : list B) a b : (a, b) ∈ zip l k -> exists i, l !! i = Some a /\ k !! i = Some b.
  Proof. intros H. apply elem_of_list_lookup in H as [i H]. apply lookup_zip_with_Some in H as (x & y & [= -> ->] & H1 & H2). exists i. split; assumption. Qed.
  Lemma uses_objs pp j o v : (o, v) ∈ uses pp j -> o ∈ objs_of j.
  Proof.
    unfold uses, objs_of. rewrite !elem_of_cons. intros [E|[E|E]]; [left; congruence|right; left; congruence|].
    right. right. apply zip_in in E as (i & E & _). eapply elem_of_list_lookup_2. exact E.
  Qed.
  Lemma uses_fun pp j o v v' : NoDup (objs_of j) -> (o, v) ∈ uses pp j -> (o, v') ∈ uses pp j -> v = v'.
  Proof.
    unfold uses, objs_of. intros N. apply NoDup_cons in N as [N1 N]. apply NoDup_cons in N as [N2 N]. rewrite elem_of_cons in N1.
    set (L := zip _ _). assert (Z : forall o v, (o, v) ∈ L -> o ∈ ob_ranges (jb_ob j)).
    { intros o1 v1 E. apply zip_in in E as (i & E & _). eapply elem_of_list_lookup_2. exact E. }
    assert (U : forall o v v', (o, v) ∈ L -> (o, v') ∈ L -> v = v').
    { intros o1 v1 v1' E E'. apply zip_in in E as (i & E1 & E2). apply zip_in in E' as (i' & E1' & E2'). rewrite (NoDup_lookup _ _ _ _ N E1 E1') in E2. congruence. }
    clearbody L. rewrite !elem_of_cons. intros [E|[E|E]] [E'|[E'|E']].
    - congruence.
    - exfalso. apply N1. left. congruence.
    - exfalso. apply N1. right. injection E as -> _. eapply Z, E'.
    - exfalso. apply N1. left. congruence.
    - congruence.
    - exfalso. apply N2. injection E as -> _. eapply Z, E'.
    - exfalso. apply N1. right. injection E' as -> _. eapply Z, E.
    - exfalso. apply N2. injection E' as -> _. eapply Z, E.
    - eapply U; eassumption.
  Qed.
  Lemma pick {B} (l : list (nat * B)) (b0 : B) : (forall o v v', (o, v) ∈ l -> (o, v') ∈ l -> v = v') -> exists f, forall o v, (o, v) ∈ l -> f o = v.
  Proof.
    induction l as [|[o v] l IH]; intros U.
    - exists (fun _ => b0). intros o v H. apply elem_of_nil in H as [].
    - destruct IH as [f Hf]. { intros o1 v1 v1' H1 H2. apply (U o1); apply elem_of_cons; right; assumption. }
      exists (fun o' => if decide (o' = o) then v else f o'). intros o' v' H. destruct (decide (o' = o)) as [->|N].
      + apply (U o); [apply elem_of_cons; left; reflexivity|exact H].
      + apply Hf. apply elem_of_cons in H as [H|H]; [congruence|exact H].
  Qed.
  (** Every job has the numbers of the objects in its proof, all different ... *)
  Definition proper j : Prop := length (ob_ranges (jb_ob j)) = length (lp_RangeProofs (jb_lp j)) /\ NoDup (objs_of j).
  (** ... and jobs that share an object are about the same proof. *)
  Definition apart jobs : Prop := forall j1 j2 o, j1 ∈ jobs -> j2 ∈ jobs -> o ∈ objs_of j1 -> o ∈ objs_of j2 -> jb_lp j1 = jb_lp j2 /\ jb_ob j1 = jb_ob j2.
  Lemma claims_exist pp jobs : Forall proper jobs -> apart jobs -> exists fC fP, forall j, j ∈ jobs -> forall o v, (o, v) ∈ uses pp j -> (fC o, fP o) = v.
  Proof.
    intros HP HA. destruct (pick (jobs ≫= uses pp) (zr 0, gzero)) as [f Hf].
    - intros o v v' H1 H2. apply elem_of_list_bind in H1 as (j1 & H1 & J1). apply elem_of_list_bind in H2 as (j2 & H2 & J2).
      destruct (HA j1 j2 o J1 J2 (uses_objs _ _ _ _ H1) (uses_objs _ _ _ _ H2)) as [E1 E2].
      assert (uses pp j2 = uses pp j1) as E by (unfold uses; rewrite E1, E2; reflexivity). rewrite E in H2.
      eapply uses_fun; [|eassumption..]. rewrite Forall_forall in HP. apply (HP j1 J1).
    - exists (fun o => fst (f o)), (fun o => snd (f o)). intros j Hj o v H. rewrite <- (surjective_pairing (f o)). apply Hf. apply elem_of_list_bind. exists j. split; assumption.
  Qed.
  Lemma job_sim pp jobs fC fP j s : Forall proper jobs -> j ∈ jobs -> (forall j, j ∈ jobs -> forall o v, (o, v) ∈ uses pp j -> (fC o, fP o) = v) ->
    csim fC fP s (job_start pp j) (Verify_process (jb_lp j) pp (jb_id j) (jb_V j) (jb_W j) (jb_path j)).
  Proof.
    intros HP Hj HU. rewrite Forall_forall in HP. destruct (HP j Hj) as [HL _]. specialize (HU j Hj). eexists _, _. split; [reflexivity|]. split; [|constructor].
    apply mok_none. cbn [job_start start ca_main]. apply msim_Verify.
    - apply HU. unfold uses. apply elem_of_cons. left. reflexivity.
    - apply HU. unfold uses. apply elem_of_cons. right. apply elem_of_cons. left. reflexivity.
    - intros i rp V H1 H2. apply HU. unfold uses. apply elem_of_cons. right. apply elem_of_cons. right.
      destruct (lookup_lt_is_Some_2 (ob_ranges (jb_ob j)) i) as [o Ho]; [rewrite HL; eapply lookup_lt_Some; exact H1|]. rewrite Ho. cbn [default].
      apply elem_of_list_lookup. exists i. apply lookup_zip_with_Some. eexists _, _. split; [reflexivity|]. split; [exact Ho|].
      apply lookup_zip_with_Some. eexists _, _. split; [reflexivity|]. split; assumption.
  Qed.

  (** Every reachable state: each call looks like a reachable state of its own process. *)
  Definition alone pp j : process VMem error := Verify_process (jb_lp j) pp (jb_id j) (jb_V j) (jb_W j) (jb_path j).
  Definition together pp jobs (s : claims C) : system C := Sys (job_start pp <$> jobs) s.
  Lemma reach pp jobs s0 x : Forall proper jobs -> apart jobs -> rtc sys_step (together pp jobs s0) x ->
    exists fC fP, match x with
    | Sys cs s => Forall2 (fun c j => exists p, rtc step (alone pp j) p /\ csim fC fP s c p) cs jobs
    | SysCrashed => exists j, j ∈ jobs /\ rtc step (alone pp j) Crashed
    end.
  Proof.
    intros HP HA HR. destruct (claims_exist pp jobs HP HA) as (fC & fP & HU). exists fC, fP.
    assert (H0 : match together pp jobs s0 with
      | Sys cs s => Forall2 (fun c j => exists p, rtc step (alone pp j) p /\ csim fC fP s c p) cs jobs
      | SysCrashed => exists j, j ∈ jobs /\ rtc step (alone pp j) Crashed end).
    { unfold together. assert (G : forall l, Forall (fun j => j ∈ jobs) l -> Forall2 (fun c j => exists p, rtc step (alone pp j) p /\ csim fC fP s0 c p) (job_start pp <$> l) l).
      { intros l HI. induction HI as [|j l Hj _ IH]; cbn [fmap list_fmap]; constructor; [|exact IH]. exists (alone pp j). split; [apply rtc_refl|]. eapply job_sim; eassumption. }
      apply G, Forall_forall. auto. }
    revert H0. induction HR as [x|x y z HS _ IH]; [auto|]. intros H0. apply IH. clear IH. inversion HS as [cs s i c c' s' Hi Hc|cs s i c Hi Hc]; subst.
    - destruct (Forall2_lookup_l _ _ _ _ _ H0 Hi) as (j & Hj & p & Hr & Hsim). destruct (csim_step _ _ _ _ _ _ _ Hsim Hc) as (K & p' & Hp' & Hsim').
      rewrite <- (list_insert_id jobs i j Hj). apply Forall2_insert.
      + eapply Forall2_impl; [exact H0|]. intros c1 j1 (p1 & R1 & S1). exists p1. split; [exact R1|]. eapply csim_kept; eassumption.
      + exists p'. split; [etransitivity; eassumption|exact Hsim'].
    - destruct (Forall2_lookup_l _ _ _ _ _ H0 Hi) as (j & Hj & p & Hr & Hsim). exists j. split; [eapply elem_of_list_lookup_2; exact Hj|].
      etransitivity; [exact Hr|]. apply rtc_once. eapply csim_crash; eassumption.
  Qed.
  Lemma returned_sim fC fP (s : claims C) c p e : csim fC fP s c p -> call_returned c e -> returned p e.
  Proof. intros (u & hs & -> & (W & _ & HM) & _) E. unfold call_returned in E. rewrite E in HM. cbn in HM. subst u. exists hs, (ca_mem c). reflexivity. Qed.
  Lemma returned_sim_inv fC fP (s : claims C) c p e : csim fC fP s c p -> returned p e -> call_returned c e.
  Proof.
    intros (u & hs & -> & (W & _ & HM) & _) (gs & m & E). assert (u = MReturn e) as -> by congruence. clear E. unfold call_returned. destruct (ca_main c); cbn in HM.
    - destruct HM as (? & ? & HM & _). discriminate HM.
    - destruct HM as (? & ? & HM & _). discriminate HM.
    - destruct HM as (? & HM & _). discriminate HM.
    - destruct HM as (? & HM & _). discriminate HM.
    - injection HM as ->. reflexivity.
  Qed.
End Jobs.

(** ** C92 *)
(** What the caller of job j gets when nobody else is verifying *)
Definition verdict {C : Curve} (pp : PolPP C) (j : job C) : res error := LiabilityProof_Verify (jb_lp j) pp (jb_id j) (jb_V j) (jb_W j) (jb_path j).

(** Any number of threads verify liability proofs at the same time, with the same parameters but any ids, published roots and
    path functions.  They may verify the same proof object.  In every schedule each call that returns accepts iff it would
    alone; if it would return an error alone, it returns that error or the error of one of its range proofs. *)
Theorem C92_same_verdict (C : Curve) (pp : PolPP C) (jobs : list (job C)) s0 cs s i j c e :
  Forall proper jobs -> apart jobs -> rtc sys_step (together pp jobs s0) (Sys cs s) -> jobs !! i = Some j -> cs !! i = Some c -> call_returned c e ->
  (e = nil_error <-> verdict pp j = Ret nil_error) /\
  forall e', verdict pp j = Ret e' ->
    e = e' \/ exists k rp Vk, lp_RangeProofs (jb_lp j) !! k = Some rp /\ lp_V (jb_lp j) !! k = Some Vk /\ VerifyRange (po_RPPP pp) rp Vk = Ret e.
Proof.
  intros HP HA HR Hj Hc He. destruct (reach pp jobs s0 _ HP HA HR) as (fC & fP & HF). destruct (Forall2_lookup_lr _ _ _ _ _ _ HF Hc Hj) as (p & Hr & Hs).
  eapply C58_same_verdict; [exact Hr|]. eapply returned_sim; eassumption.
Qed.
(** If every caller would get an answer alone, no schedule panics or gets stuck before all calls have returned. *)
Theorem C92_no_crash_no_deadlock (C : Curve) (pp : PolPP C) (jobs : list (job C)) s0 x :
  Forall proper jobs -> apart jobs -> Forall (fun j => exists e, verdict pp j = Ret e) jobs -> rtc sys_step (together pp jobs s0) x ->
  x <> SysCrashed /\ ((exists cs s, x = Sys cs s /\ Forall (fun c => exists e, call_returned c e) cs) \/ exists x', sys_step x x').
Proof.
  intros HP HA HV HR. destruct (reach pp jobs s0 _ HP HA HR) as (fC & fP & HF). destruct x as [cs s|].
  - split; [discriminate|].
    assert (D : Forall2 (fun c j => (exists e, call_returned c e) \/ call_crash c s \/ exists c' s', call_step c s c' s') cs jobs).
    { rewrite Forall_forall in HV. eapply Forall2_impl; [apply Forall2_same_length_lookup; split; [eapply Forall2_length; exact HF|]|intros c j H; exact H].
      intros i c j Hc Hj. destruct (Forall2_lookup_lr _ _ _ _ _ _ HF Hc Hj) as (p & Hr & Hs). destruct (HV j) as [e He]; [eapply elem_of_list_lookup_2; exact Hj|].
      destruct (C58_no_crash_no_deadlock _ _ _ _ _ _ _ p e He Hr) as [_ [[e' R]|[p' R]]].
      - left. exists e'. eapply returned_sim_inv; eassumption.
      - right. eapply csim_live; eassumption. }
    assert (D' : Forall (fun c => exists e, call_returned c e) cs \/ exists i c, cs !! i = Some c /\ (call_crash c s \/ exists c' s', call_step c s c' s')).
    { clear -D. induction D as [|c j cs jobs [R|R] D IH]; [left; constructor| |right; exists 0%nat, c; split; [reflexivity|exact R]].
      destruct IH as [IH|(i & c' & IH)]; [left; constructor; assumption|right; exists (S i), c'; exact IH]. }
    destruct D' as [D'|(i & c & Hi & [R|(c' & s' & R)])].
    + left. exists cs, s. split; [reflexivity|exact D'].
    + right. exists SysCrashed. eapply sys_crash; eassumption.
    + right. eexists. eapply sys_call; eassumption.
  - exfalso. destruct HF as (j & Hj & Hr). rewrite Forall_forall in HV. destruct (HV j Hj) as [e He].
    destruct (C58_no_crash_no_deadlock _ _ _ _ _ _ _ Crashed e He Hr) as [N _]. apply N. reflexivity.
Qed.
(** No schedule is infinite, whatever the jobs. *)
Theorem C92_terminates (C : Curve) (x : system C) : ~ exists f : nat -> system C, f 0%nat = x /\ forall n, sys_step (f n) (f (S n)).
Proof.
  intros (f & _ & Hf). assert (G : forall c, forall n, f n = c -> False); [|by apply (G _ 0%nat Logic.eq_refl)].
  intros c. induction (sys_step_wf c) as [c _ IH]. intros n Hn. apply (IH (f (S n))) with (n := S n); [|done]. rewrite <- Hn. apply Hf.
Qed.

(** The condition that calls on one object are about one proof is needed.  sum.Proof.Verify, called from two threads on one
    proof object for different commitments, can accept the wrong one: whatever proof is valid for V, and whatever V', there is
    a schedule in which the call for V' accepts, and one in which the call for V returns what the call for V' returns alone. *)
Definition sum_call {C : Curve} (proof : sumProof C) (o : nat) (pp : sumPP C) (V : G1 C) : call C := start (FMCall (L_sum_Verify proof o pp V) FMReturn).
Lemma sys_main {C : Curve} (cs : list (call C)) s j t gs m t' gs' m' s' : cs !! j = Some (MkCall t gs m) -> fmain_step t gs m s = Next (t', gs', m', s') ->
  sys_step (Sys cs s) (Sys (<[j := MkCall t' gs' m']> cs) s').
Proof. intros H E. eapply sys_call; [exact H|]. apply call_main. exact E. Qed.
Theorem C92_sum_race (C : Curve) (pp : sumPP C) (proof : sumProof C) o V V' e e' s0 :
  sum_Verify proof pp V = Ret e -> sum_Verify proof pp V' = Ret e' ->
  exists cs s c, rtc sys_step (Sys [sum_call proof o pp V; sum_call proof o pp V'] s0) (Sys cs s) /\ cs !! 1%nat = Some c /\ call_returned c e.
Proof.
  rewrite !sum_Verify_front. intros H1 H2. apply rbind_inv in H1 as ([[a P] bp] & F1 & H1). apply rbind_inv in H2 as ([[a' P'] bp'] & F2 & H2).
  assert (bp' = bp) as ->.
  { unfold sum_front in F1, F2. apply rbind_inv in F1 as (x & _ & F1). apply rbind_inv in F2 as (x' & _ & F2). apply rbind_inv in F1 as (b & B1 & F1).
    apply rbind_inv in F2 as (b' & B2 & F2). congruence. }
  unfold sum_call, L_sum_Verify. rewrite F1, F2. unfold L_claim. cbn [lbind]. unfold start.
  eexists _, _, _. split; [|split].
  - eapply rtc_l; [eapply (sys_main _ _ 1); [reflexivity|cbn; reflexivity]|]. cbn [insert list_insert alter list_alter].
    eapply rtc_l; [eapply (sys_main _ _ 1); [reflexivity|cbn; reflexivity]|]. cbn [insert list_insert alter list_alter].
    eapply rtc_l; [eapply (sys_main _ _ 0); [reflexivity|cbn; reflexivity]|]. cbn [insert list_insert alter list_alter].
    eapply rtc_l; [eapply (sys_main _ _ 0); [reflexivity|cbn; reflexivity]|]. cbn [insert list_insert alter list_alter].
    eapply rtc_l; [eapply (sys_main _ _ 1); [reflexivity|cbn; reflexivity]|]. cbn [insert list_insert alter list_alter].
    eapply rtc_l; [eapply (sys_main _ _ 1); [reflexivity|cbn; reflexivity]|]. cbn [insert list_insert alter list_alter set_C set_P cl_C cl_P]. rewrite !Nat.eqb_refl.
    eapply rtc_l; [eapply (sys_main _ _ 1); [reflexivity|cbn [fmain_step lib_step]; rewrite H1; reflexivity]|]. cbn [insert list_insert alter list_alter].
    apply rtc_refl.
  - reflexivity.
  - reflexivity.
Qed.

Local Lemma sum_zero_W C (pp : sumPP C) p V : sm_W p = gzero -> sm_c p = 0 ->
  gadd (sum_P pp p V) (gmul (inst_x (sum_ipa pp) * (sm_c p * sum_x (sm_c p) V (sm_W p))) (bp_U (sum_ipa pp))) =
  gadd V (gadd (gmul (sm_ρ p) (sp_F pp)) (sp_B pp)).
Proof.
  intros HW Hc. unfold sum_P. rewrite HW, Hc. set (x := sum_x 0 V gzero). set (y := inst_x (sum_ipa pp)). clearbody x y. generalize (bp_U (sum_ipa pp)). intros U. module.
Qed.

(** A valid proof for V, and a V' for which it is not valid *)
Example C92_sum_race_nonvacuous : exists pp (p : sumProof toy) V V' msg s, sum_NewPublicParams 4 = Ret pp /\ V' <> V /\
  sum_Verify p pp V = Ret nil_error /\ sum_Verify p pp V' = Ret (Err msg) /\
  (exists cs s' c, rtc sys_step (Sys [sum_call p 0 pp V; sum_call p 0 pp V'] s) (Sys cs s') /\ cs !! 1%nat = Some c /\ call_returned c nil_error) /\
  (exists cs s' c, rtc sys_step (Sys [sum_call p 0 pp V'; sum_call p 0 pp V] s) (Sys cs s') /\ cs !! 1%nat = Some c /\ call_returned c (Err msg)).
Proof.
  destruct (C24_generated_params toy 2) as (pp & Hpp & Hwf). pose proof (sum_params_wf _ _ Hwf) as Hwf'. destruct Hwf' as (HG & HH & Hb & HB).
  set (v := [zr 1; zr 2; zr 3; zr 6]). set (w := [0; 0; 0; 0]).
  destruct (C24_sum_complete toy pp 2 v (zr 9) w 0 Hwf) as (p & Hp & Hv); [reflexivity| |reflexivity|].
  { exists [zr 1; zr 2; zr 3]. unfold v. cbn [app zsum]. repeat f_equal. }
  specialize (Hv (toy_chal _ _)). set (V := commit_sum pp v (zr 9)) in *.
  assert (sm_W p = gzero /\ sm_c p = 0) as [HW Hc].
  { clear Hv. unfold sum_NewArgument in Hp. rewrite mulv_sum in Hp by (first [rewrite HG; reflexivity|apply nonempty_len; rewrite HG; cbn; lia|apply nonempty_len; cbn; lia]). cbn [rbind] in Hp.
    apply rbind_inv in Hp as (c & Ec & Hp). rewrite Hb in Ec. rewrite vec_innerprod_spec in Ec by (rewrite sum_b_length by lia; reflexivity). injection Ec as <-.
    repeat (apply rbind_inv in Hp as (? & _ & Hp)). injection Hp as <-. cbn [sm_W sm_c]. split.
    - unfold w. destruct (sp_Gs pp) as [|a [|b [|d [|e l]]]]; cbn in HG; try lia. cbn [msm]. cbn. ring.
    - unfold w. set (q := sum_b (2 ^ 2)). destruct q as [|a [|b [|d [|e l]]]]; cbn [dot]; ring. }
  set (V' := gadd V (gen1 toy)). assert (N : V' <> V).
  { intros E. apply (gen1_neq_0 (C:=toy)). apply (gadd_cancel_l V). rewrite gadd_0_r. exact E. }
  destruct (sum_Verify p pp V') as [[|msg]| |] eqn:E'.
  - exfalso. apply N. rewrite sum_verify_spec in Hv, E' by lia.
    assert (L : (2 * 2 <= length (ipp_LRs (sm_π p)))%nat).
    { destruct (le_lt_dec (2 * 2) (length (ipp_LRs (sm_π p)))) as [L|L]; [exact L|]. rewrite (ipp_verify_short 2) in Hv; [discriminate Hv|exact HG|exact HH|exact L]. }
    destruct (ipp_verify_spec 2 (sum_ipa pp) (MkIPP (ipp_LRs (sm_π p)) (ipp_a (sm_π p)) (ipp_b (sm_π p)) (sum_P pp p V) (sm_c p * sum_x (sm_c p) V (sm_W p))) HG HH L) as (e1 & X1 & Y1).
    destruct (ipp_verify_spec 2 (sum_ipa pp) (MkIPP (ipp_LRs (sm_π p)) (ipp_a (sm_π p)) (ipp_b (sm_π p)) (sum_P pp p V') (sm_c p * sum_x (sm_c p) V' (sm_W p))) HG HH L) as (e2 & X2 & Y2).
    rewrite Hv in X1. rewrite E' in X2. injection X1 as <-. injection X2 as <-. pose proof (proj1 Y1 Logic.eq_refl) as Z1. pose proof (proj1 Y2 Logic.eq_refl) as Z2.
    clear -Z1 Z2 HW Hc. cbn [ipp_P ipp_C ipp_LRs ipp_a ipp_b] in Z1, Z2. rewrite <- Z2 in Z1. apply gadd_cancel_r in Z1.
    rewrite !(sum_zero_W toy pp p _ HW Hc) in Z1. apply gadd_cancel_r in Z1. symmetry. exact Z1.
  - eexists pp, p, V, V', msg, (MkClaims (fun _ => 0) (fun _ => gzero)). split; [exact Hpp|]. split; [exact N|]. split; [exact Hv|]. split; [exact E'|].
    split; eapply C92_sum_race; eassumption.
  - exfalso. rewrite sum_verify_spec in Hv, E' by lia.
    assert (L : (2 * 2 <= length (ipp_LRs (sm_π p)))%nat).
    { destruct (le_lt_dec (2 * 2) (length (ipp_LRs (sm_π p)))) as [L|L]; [exact L|]. rewrite (ipp_verify_short 2) in Hv; [discriminate Hv|exact HG|exact HH|exact L]. }
    edestruct (ipp_verify_spec 2 (sum_ipa pp)) as (e1 & X1 & _); [exact HG|exact HH| |rewrite E' in X1; discriminate X1]. exact L.
  - exfalso. rewrite sum_verify_spec in Hv, E' by lia.
    assert (L : (2 * 2 <= length (ipp_LRs (sm_π p)))%nat).
    { destruct (le_lt_dec (2 * 2) (length (ipp_LRs (sm_π p)))) as [L|L]; [exact L|]. rewrite (ipp_verify_short 2) in Hv; [discriminate Hv|exact HG|exact HH|exact L]. }
    edestruct (ipp_verify_spec 2 (sum_ipa pp)) as (e1 & X1 & _); [exact HG|exact HH| |rewrite E' in X1; discriminate X1]. exact L.
Qed.

(** The proof of the example of C53, which carries eleven range proofs or more, verified by three threads at the same time: twice
    for its id and once for another id *)
Example C92_nonvacuous : exists (pp : PolPP toy) lp V W, (11 <= length (lp_RangeProofs lp))%nat /\
  let ob := MkObjs (seq 2 (length (lp_RangeProofs lp))) 0 1 in
  let jobs := [MkJob lp ob "123456789" V W (digit_path 7); MkJob lp ob "987654321" V W (digit_path 7); MkJob lp ob "123456789" V W (digit_path 7)] in
  Forall proper jobs /\ apart jobs /\ (exists j, jobs !! 2%nat = Some j /\ verdict pp j = Ret nil_error).
Proof.
  destruct ex_dense_run as (pp & g & ls & ls' & V & W & lp & _ & _ & _ & _ & _ & _ & H7).
  exists pp, lp, V, W. split; [|cbv zeta; split; [|split]].
  - apply C55_acceptance in H7 as (p & Hp & H7). rewrite ex_dense_path1 in Hp. assert (ex_dense_p1 = p) as <- by (injection Hp; done).
    destruct (acc_range _ _ _ _ _ H7 10%nat) as (rp & Vi & Hr & _); [change (length ex_dense_p1) with 11%nat; lia|]. apply lookup_lt_Some in Hr. lia.
  - set (l := length (lp_RangeProofs lp)).
    assert (P : forall id, proper (MkJob lp (MkObjs (seq 2 l) 0 1) id V W (digit_path 7))).
    { intros id. split; [cbn; rewrite seq_length; reflexivity|]. exact (NoDup_seq 0 (2 + l)). }
    do 3 (apply Forall_cons_2; [apply P|]). apply Forall_nil_2.
  - intros j1 j2 o H1 H2 _ _. repeat (apply elem_of_cons in H1 as [->|H1]); [..|apply elem_of_nil in H1 as []];
      (repeat (apply elem_of_cons in H2 as [->|H2]); [..|apply elem_of_nil in H2 as []]); split; reflexivity.
  - eexists. split; [reflexivity|]. exact H7.
Qed.

Print Assumptions C92_same_verdict.
Print Assumptions C92_no_crash_no_deadlock.
Print Assumptions C92_terminates.
Print Assumptions C92_sum_race.
