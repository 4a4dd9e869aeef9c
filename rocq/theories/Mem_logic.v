(** Reasoning about the computations of Model_mem: a computation on the memory is compared with the value-level function of
    the same name. *)
From Verif Require Export Model_mem.

Section Logic.
  Context {C : Curve}.
  Local Notation mem := (mem C).
  Local Notation M := (M C).

  (** ** Which objects a computation has left alone *)
  (** From h to h': every point of h is still there with the same value; the inner-product proofs of h are unchanged except
      for the fields P and C of those in S; and only new objects and proofs in S have been assigned to. *)
  Record ext (S : list iloc) (h h' : mem) : Prop := MkExt {
    ext_pts : mpts h `prefix_of` mpts h';
    ext_ipps : forall i o, mipps h !! i = Some o -> exists o', mipps h' !! i = Some o' /\
      io_LRs o' = io_LRs o /\ io_a o' = io_a o /\ io_b o' = io_b o /\ (i ∉ S -> o' = o);
    ext_writes : exists w, mwrites h' = w ++ mwrites h /\
      Forall (fun e => match e with WPoint l => length (mpts h) <= l | WProof i => i ∈ S \/ length (mipps h) <= i end) w }.

  Lemma ext_refl S h : ext S h h.
  Proof. split; [done| |exists []; split; [done|constructor]]. intros i o H. exists o. auto. Qed.
  Lemma ext_ipps_length S h h' : ext S h h' -> (length (mipps h) <= length (mipps h'))%nat.
  Proof.
    intros [_ E _]. destruct (decide (length (mipps h) = 0)) as [->|Hn]; [lia|].
    destruct (mipps h !! (length (mipps h) - 1)) as [o|] eqn:Ho.
    - destruct (E _ _ Ho) as (o' & Ho' & _). apply lookup_lt_Some in Ho'. lia.
    - apply lookup_ge_None in Ho. lia.
  Qed.
  Lemma ext_pts_length S h h' : ext S h h' -> (length (mpts h) <= length (mpts h'))%nat.
  Proof. intros [E _ _]. apply prefix_length. exact E. Qed.
  Lemma ext_trans S h1 h2 h3 : ext S h1 h2 -> ext S h2 h3 -> ext S h1 h3.
  Proof.
    intros E1 E2. pose proof (ext_pts_length _ _ _ E1) as Hl. pose proof (ext_ipps_length _ _ _ E1) as Hi.
    destruct E1 as [P1 I1 (w1 & W1 & F1)], E2 as [P2 I2 (w2 & W2 & F2)]. split.
    - etransitivity; eassumption.
    - intros i o H. destruct (I1 i o H) as (o1 & H1 & A1 & A2 & A3 & A4). destruct (I2 i o1 H1) as (o2 & H2 & B1 & B2 & B3 & B4).
      exists o2. split; [exact H2|]. split; [congruence|]. split; [congruence|]. split; [congruence|].
      intros Hn. rewrite (B4 Hn). apply A4. exact Hn.
    - exists (w2 ++ w1). rewrite W2, W1, app_assoc. split; [done|]. apply Forall_app. split; [|exact F1].
      eapply Forall_impl; [exact F2|]. intros [l|i]; cbn; [lia|]. intros [H|H]; [left; exact H|right; lia].
  Qed.
  Lemma ext_weaken S S' h h' : S ⊆ S' -> ext S h h' -> ext S' h h'.
  Proof.
    intros HS [P I (w & W & F)]. split; [exact P| |].
    - intros i o H. destruct (I i o H) as (o' & A0 & A1 & A2 & A3 & A4). exists o'. repeat (split; [assumption|]).
      intros Hn. apply A4. set_solver.
    - exists w. split; [exact W|]. eapply Forall_impl; [exact F|]. intros [l|i]; [done|]. intros [H|H]; [left; set_solver|right; exact H].
  Qed.
  Lemma ext_weaken_nil S h h' : ext [] h h' -> ext S h h'.
  Proof. apply ext_weaken. set_solver. Qed.

  (** ** What the pointers point to *)
  Definition val (h : mem) (l : loc) (v : G1 C) : Prop := mpts h !! l = Some v.
  Definition vals (h : mem) (ls : list loc) (vs : list (G1 C)) : Prop := Forall2 (val h) ls vs.
  Definition val3 (h : mem) (l : loc * loc * loc) (v : G1 C * G1 C * G1 C) : Prop :=
    val h l.1.1 v.1.1 /\ val h l.1.2 v.1.2 /\ val h l.2 v.2.
  (** The inner-product proof i has the parts LRs, a and b of p; p's claim P, C is not compared. *)
  Definition core (h : mem) (i : iloc) (p : IPProof C) : Prop :=
    exists o, mipps h !! i = Some o /\ vals h (io_LRs o) (ipp_LRs p) /\ io_a o = ipp_a p /\ io_b o = ipp_b p.
  (** The inner-product proof i is p. *)
  Definition whole (h : mem) (i : iloc) (p : IPProof C) : Prop :=
    exists o, mipps h !! i = Some o /\ vals h (io_LRs o) (ipp_LRs p) /\ io_a o = ipp_a p /\ io_b o = ipp_b p /\
      val h (io_P o) (ipp_P p) /\ io_C o = ipp_C p.

  Lemma val_lt h l v : val h l v -> (l < length (mpts h))%nat.
  Proof. apply lookup_lt_Some. Qed.
  Lemma val_ext S h h' l v : ext S h h' -> val h l v -> val h' l v.
  Proof. intros [P _ _] H. eapply prefix_lookup; eassumption. Qed.
  Lemma vals_ext S h h' l v : ext S h h' -> vals h l v -> vals h' l v.
  Proof. intros E H. eapply Forall2_impl; [exact H|]. intros ??. apply (val_ext S). exact E. Qed.
  Lemma val3_ext S h h' l v : ext S h h' -> val3 h l v -> val3 h' l v.
  Proof. intros E (H1 & H2 & H3). split_and!; eapply val_ext; eassumption. Qed.
  Lemma val3s_ext S h h' l v : ext S h h' -> Forall2 (val3 h) l v -> Forall2 (val3 h') l v.
  Proof. intros E H. eapply Forall2_impl; [exact H|]. intros ??. apply (val3_ext S). exact E. Qed.
  Lemma core_ext S h h' i p : ext S h h' -> core h i p -> core h' i p.
  Proof.
    intros E (o & H & HL & Ha & Hb). pose proof E as [_ I _]. destruct (I i o H) as (o' & A0 & A1 & A2 & A3 & _).
    exists o'. split; [exact A0|]. rewrite A1, A2, A3. split; [|auto]. eapply vals_ext; eassumption.
  Qed.
  Lemma whole_ext h h' i p : ext [] h h' -> whole h i p -> whole h' i p.
  Proof.
    intros E (o & H & HL & Ha & Hb & HP & Hc). pose proof E as [_ I _]. destruct (I i o H) as (o' & A0 & _ & _ & _ & A4).
    rewrite A4 in A0 by set_solver. exists o. split; [exact A0|]. split_and!; try assumption;
    [eapply vals_ext; eassumption|eapply val_ext; eassumption].
  Qed.
  Lemma whole_core h i p : whole h i p -> core h i p.
  Proof. intros (o & H & HL & Ha & Hb & _). exists o. auto. Qed.
  Lemma vals_length h l v : vals h l v -> length l = length v.
  Proof. apply Forall2_length. Qed.

  (** ** The comparison *)
  (** Run in the memory h, the computation does what r says: it panics or hangs when r does, and when r returns b it returns
      some a in a memory h' such that Φ a h' b. *)
  Definition runs {A B} (m : M A) (h : mem) (r : res B) (Φ : A -> mem -> B -> Prop) : Prop :=
    match r with
    | Ret b => exists a h', m h = Ret (a, h') /\ Φ a h' b
    | Panic => m h = Panic
    | Hang => m h = Hang
    end.

  Lemma runs_bind {A A' B B'} (m : M A) (k : A -> M A') h (r : res B) (f : B -> res B') Φ Ψ :
    runs m h r Φ -> (forall a h' b, r = Ret b -> Φ a h' b -> runs (k a) h' (f b) Ψ) -> runs (mbind m k) h (rbind r f) Ψ.
  Proof.
    unfold runs, mbind. destruct r as [b| |]; cbn [rbind]; intros H K; [|rewrite H; reflexivity..].
    destruct H as (a & h' & -> & HΦ). apply (K a h' b); [reflexivity|exact HΦ].
  Qed.
  (** For a step that has no counterpart among the steps of the value-level function *)
  Lemma runs_step {A A' B B'} (m : M A) (k : A -> M A') h (b : B) (r : res B') Φ Ψ :
    runs m h (Ret b) Φ -> (forall a h', Φ a h' b -> runs (k a) h' r Ψ) -> runs (mbind m k) h r Ψ.
  Proof. intros (a & h' & E & HΦ) K. unfold runs, mbind. rewrite E. exact (K a h' HΦ). Qed.
  Lemma runs_ret {A B} (a : A) h (b : B) (Φ : A -> mem -> B -> Prop) : Φ a h b -> runs (mret a) h (Ret b) Φ.
  Proof. intros H. exists a, h. auto. Qed.
  Lemma runs_lift {A} (r : res A) h : runs (mlift r) h r (fun a h' b => h' = h /\ a = b).
  Proof. destruct r; cbn; [|reflexivity..]. eauto. Qed.
  Lemma runs_post {A B} (m : M A) h (r : res B) Φ (Ψ : A -> mem -> B -> Prop) :
    runs m h r Φ -> (forall a h' b, r = Ret b -> Φ a h' b -> Ψ a h' b) -> runs m h r Ψ.
  Proof. unfold runs. destruct r as [b| |]; [|auto..]. intros (a & h' & E & H) K. exists a, h'. auto. Qed.
  (** A pure step on both sides with different types of the results *)
  Lemma runs_lift_bind {A A' B'} (r : res A) (k : A -> M A') (f : A -> res B') h Ψ :
    (forall a, r = Ret a -> runs (k a) h (f a) Ψ) -> runs (mbind (mlift r) k) h (rbind r f) Ψ.
  Proof. intros K. eapply runs_bind; [apply runs_lift|]. intros a h' b E [-> ->]. apply K. exact E. Qed.

  (** ** Points under construction *)
  (** The object X was made after hb, and so far only it and newer objects have been changed; its value is v. *)
  Definition acc (hb h : mem) (X : loc) (v : G1 C) : Prop := ext [] hb h /\ (length (mpts hb) <= X)%nat /\ val h X v.

  Lemma acc_ext hb h h' X v : acc hb h X v -> ext [] h h' -> acc hb h' X v.
  Proof. intros (E & L & V) E'. split_and!; [eapply ext_trans; eassumption|exact L|eapply val_ext; eassumption]. Qed.

  Lemma store_ext hb h X v : ext [] hb h -> (length (mpts hb) <= X)%nat -> (X < length (mpts h))%nat ->
    ext [] hb (MkMem (<[X := v]> (mpts h)) (mipps h) (WPoint X :: mwrites h)).
  Proof.
    intros [P I (w & W & F)] L Lt. split; cbn.
    - destruct P as [t Ht]. rewrite Ht. rewrite insert_app_r_alt by lia. eexists; reflexivity.
    - exact I.
    - exists (WPoint X :: w). cbn. rewrite W. split; [reflexivity|]. constructor; [exact L|exact F].
  Qed.

  (** *** Primitive operations *)
  Lemma alloc_spec h v : exists l h', alloc v h = Ret (l, h') /\ acc h h' l v.
  Proof.
    exists (length (mpts h)), (MkMem (mpts h ++ [v]) (mipps h) (mwrites h)). split; [reflexivity|]. split_and!; [|lia|].
    - split; cbn; [eexists; reflexivity| |exists []; split; [reflexivity|constructor]]. intros i o H. exists o. auto.
    - unfold val. cbn. rewrite lookup_app_r, Nat.sub_diag by lia. reflexivity.
  Qed.
  Lemma runs_alloc h v : runs (alloc v) h (Ret v) (fun l h' b => acc h h' l b).
  Proof. destruct (alloc_spec h v) as (l & h' & E & H). exists l, h'. auto. Qed.
  Lemma deref_val h l v : val h l v -> deref l h = Ret (v, h).
  Proof. unfold val, deref. intros ->. reflexivity. Qed.
  Lemma runs_deref h l v : val h l v -> runs (deref l) h (Ret v) (fun a h' b => h' = h /\ a = b).
  Proof. intros H. exists v, h. rewrite (deref_val _ _ _ H). auto. Qed.
  Lemma runs_Mul h l v x : val h l v -> runs (p_Mul l x) h (Ret (gmul x v)) (fun l' h' b => acc h h' l' b).
  Proof.
    intros H. destruct (alloc_spec h (gmul x v)) as (l' & h' & E & A). exists l', h'. split; [|exact A].
    unfold p_Mul, mbind. rewrite (deref_val _ _ _ H). exact E.
  Qed.
  Lemma runs_Copy h l v : val h l v -> runs (p_Copy l) h (Ret v) (fun l' h' b => acc h h' l' b).
  Proof.
    intros H. destruct (alloc_spec h v) as (l' & h' & E & A). exists l', h'. split; [|exact A].
    unfold p_Copy, mbind. rewrite (deref_val _ _ _ H). exact E.
  Qed.
  Lemma Add_run h X v Y w : val h X v -> val h Y w ->
    p_Add X Y h = Ret (tt, MkMem (<[X := gadd v w]> (mpts h)) (mipps h) (WPoint X :: mwrites h)).
  Proof.
    intros HX HY. unfold p_Add, mbind. rewrite (deref_val _ _ _ HX), (deref_val _ _ _ HY). unfold store.
    unfold val in HX. rewrite HX. reflexivity.
  Qed.
  Lemma Sub_run h X v Y w : val h X v -> val h Y w ->
    p_Sub X Y h = Ret (tt, MkMem (<[X := gadd v (gopp w)]> (mpts h)) (mipps h) (WPoint X :: mwrites h)).
  Proof.
    intros HX HY. unfold p_Sub, mbind. rewrite (deref_val _ _ _ HX), (deref_val _ _ _ HY). unfold store.
    unfold val in HX. rewrite HX. reflexivity.
  Qed.
  Lemma acc_store hb h X v u : acc hb h X v -> acc hb (MkMem (<[X := u]> (mpts h)) (mipps h) (WPoint X :: mwrites h)) X u.
  Proof.
    intros (E & L & V). pose proof (val_lt _ _ _ V) as Lt. split_and!; [apply store_ext; assumption|exact L|].
    unfold val. cbn. apply list_lookup_insert. exact Lt.
  Qed.
  Lemma acc_store_other hb h X v u Y w : X <> Y -> acc hb h X v -> acc hb h Y w ->
    acc hb (MkMem (<[X := u]> (mpts h)) (mipps h) (WPoint X :: mwrites h)) Y w.
  Proof.
    intros N (E & L & V) (_ & LY & VY). pose proof (val_lt _ _ _ V) as Lt. split_and!; [apply store_ext; assumption|exact LY|].
    unfold val. cbn. rewrite list_lookup_insert_ne by exact N. exact VY.
  Qed.
  (** X.Add(Y) *)
  Lemma runs_Add hb h X v Y w : acc hb h X v -> val h Y w ->
    runs (p_Add X Y) h (Ret (gadd v w)) (fun _ h' b => acc hb h' X b).
  Proof.
    intros HX HY. eexists _, _. split; [apply Add_run; [apply HX|exact HY]|]. apply (acc_store hb h X v). exact HX.
  Qed.
  Lemma runs_Sub hb h X v Y w : acc hb h X v -> val h Y w ->
    runs (p_Sub X Y) h (Ret (gadd v (gopp w))) (fun _ h' b => acc hb h' X b).
  Proof.
    intros HX HY. eexists _, _. split; [apply Sub_run; [apply HX|exact HY]|]. apply (acc_store hb h X v). exact HX.
  Qed.
  (** X.Add(Y) while Z is under construction as well *)
  Lemma runs_Add2 hb h X v Y w Z u : X <> Z -> acc hb h X v -> acc hb h Z u -> val h Y w ->
    runs (p_Add X Y) h (Ret (gadd v w)) (fun _ h' b => acc hb h' X b /\ acc hb h' Z u).
  Proof.
    intros N HX HZ HY. eexists _, _. split; [apply Add_run; [apply HX|exact HY]|]. split.
    - apply (acc_store hb h X v). exact HX.
    - apply (acc_store_other hb h X v); assumption.
  Qed.
  Lemma runs_Equals h X v Y w : val h X v -> val h Y w -> runs (p_Equals X Y) h (Ret (geqb v w)) (fun a h' b => h' = h /\ a = b).
  Proof.
    intros HX HY. eexists _, _. unfold p_Equals, mbind. rewrite (deref_val _ _ _ HX), (deref_val _ _ _ HY). auto.
  Qed.
  Lemma runs_IsInfinity h X v : val h X v -> runs (p_IsInfinity X) h (Ret (geqb v gzero)) (fun a h' b => h' = h /\ a = b).
  Proof. intros HX. eexists _, _. unfold p_IsInfinity, mbind. rewrite (deref_val _ _ _ HX). auto. Qed.
  Lemma runs_Bytes h X v : val h X v -> runs (p_Bytes X) h (Ret (enc1 C v)) (fun a h' b => h' = h /\ a = b).
  Proof. intros HX. eexists _, _. unfold p_Bytes, mbind. rewrite (deref_val _ _ _ HX). auto. Qed.
  Lemma derefs_vals h ls vs : vals h ls vs -> derefs ls h = Ret (vs, h).
  Proof.
    intros H. induction H as [|l v ls vs Hl _ IH]; [reflexivity|]. cbn [derefs]. unfold mbind.
    rewrite (deref_val _ _ _ Hl), IH. reflexivity.
  Qed.
  Lemma runs_derefs h ls vs : vals h ls vs -> runs (derefs ls) h (Ret vs) (fun a h' b => h' = h /\ a = b).
  Proof. intros H. exists vs, h. rewrite (derefs_vals _ _ _ H). auto. Qed.
End Logic.
