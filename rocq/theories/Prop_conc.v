(** Properties C58 and C59: verification and proving with goroutines.

    Specification: [step] is one step of one thread (Model_conc.v), so [rtc step] reaches exactly the states that some schedule
    reaches; [returned c r] says that the function has returned r. *)
From Verif Require Import Prop_accept Model_conc Prop_liability.
From Verif Require Import Toy Pol_run.
Local Open Scope Zr_scope.

(** ** Any program *)
Section Generic.
  Context {M R : Type}.
  Implicit Types (g : goroutine M) (gs : list (goroutine M)) (t : main M R) (c : process M R).

  Definition gnext g' g : Prop := exists m m', gor_step g m = Next (g', m').
  Definition lnext gs' gs : Prop := exists i g g', gs !! i = Some g /\ gnext g' g /\ gs' = <[i := g']> gs.
  Lemma gnext_wf g : Acc gnext g.
  Proof.
    induction g as [A c k IH|a k IH|]; constructor; intros g' (m & m' & H); cbn in H.
    - destruct c; try discriminate H. injection H as <- <-. apply IH.
    - destruct (a m); try discriminate H. injection H as <- <-. apply IH.
    - discriminate H.
  Qed.
  Lemma lnext_wf gs : Acc lnext gs.
  Proof.
    induction gs as [|g gs IH].
    - constructor. intros gs' (i & g & g' & H & _). discriminate H.
    - revert gs IH. induction (gnext_wf g) as [g _ IHg]. intros gs Hgs. pose proof Hgs as Hgs0. induction Hgs as [gs Hgs' IHgs].
      constructor. intros gs' (i & x & x' & Hx & Hn & ->). destruct i as [|i]; cbn in Hx |- *.
      + injection Hx as ->. apply IHg; [exact Hn|exact Hgs0].
      + assert (Hl : lnext (<[i := x']> gs) gs) by (exists i, x, x'; done). apply IHgs; [exact Hl|apply Hgs'; exact Hl].
  Qed.
  (** No schedule goes on forever: a step that is not a step of a goroutine shortens the main thread. *)
  Lemma step_wf c : Acc (fun c' c => step c c') c.
  Proof.
    assert (G0 : Acc (fun c' c => step (M:=M) (R:=R) c c') Crashed) by (constructor; intros c' H; inversion H).
    destruct c as [t gs m|]; [|exact G0]. revert gs m.
    assert (W : forall t, (forall gs m t' gs' m', main_step t gs m = Next (t', gs', m') -> Acc (fun c' c => step c c') (Run t' gs' m')) ->
      forall gs m, Acc (fun c' c => step c c') (Run t gs m)).
    { clear t. intros t Hk gs. induction (lnext_wf gs) as [gs _ IH]. intros m. constructor. intros c' H. inversion H; subst.
      - eapply Hk; eassumption.
      - exact G0.
      - apply IH. exists i, g, g'. split; [done|]. split; [|done]. by exists m, m'.
      - exact G0. }
    induction t as [A c k IH|g k IH|a k IH|A f k IH|r]; apply W; intros gs m t' gs' m' H; cbn in H.
    - destruct c; try discriminate H. injection H as <- <- <-. apply IH.
    - injection H as <- <- <-. apply IH.
    - destruct (a m); try discriminate H. injection H as <- <- <-. apply IH.
    - injection H as <- <- <-. apply IH.
    - discriminate H.
  Qed.
  (** If every reachable state that has not returned can take a step, some schedule returns. *)
  Lemma step_returns (P : process M R -> Prop) c : P c -> (forall c c', P c -> step c c' -> P c') ->
    (forall c, P c -> (exists r, returned c r) \/ exists c', step c c') -> exists c' r, rtc step c c' /\ returned c' r.
  Proof.
    intros H0 Hs Hp. induction (step_wf c) as [c _ IH]. destruct (Hp c H0) as [[r Hr]|[c' Hc]]; [exists c, r; split; [constructor|done]|].
    destruct (IH c' Hc) as (c2 & r & H2 & Hr); [by apply (Hs c)|]. exists c2, r. split; [by eapply rtc_l|done].
  Qed.
  (** Running every goroutine where it is started is one of the schedules. *)
  Lemma gor_inline_steps g t gs m m' : gor_inline g m = Ret m' -> exists gs', rtc (step (R:=R)) (Run t (gs ++ [g]) m) (Run t (gs ++ gs') m').
  Proof.
    revert m. induction g as [A c k IH|a k IH|]; intros m H; cbn in H.
    - destruct c as [x| |]; try done. cbn in H. destruct (IH x m H) as [gs' Hs]. exists gs'. eapply rtc_l; [|exact Hs].
      replace (gs ++ [k x]) with (<[length gs := k x]> (gs ++ [GCall (Ret x) k])) by (rewrite insert_app_r_alt by done; rewrite Nat.sub_diag; done).
      eapply (step_gor _ _ _ (length gs)); [apply list_lookup_middle; done|done].
    - destruct (a m) as [| |m1] eqn:E; try done. destruct (IH m1 H) as [gs' Hs]. exists gs'. eapply rtc_l; [|exact Hs].
      replace (gs ++ [k]) with (<[length gs := k]> (gs ++ [GAct a k])) by (rewrite insert_app_r_alt by done; rewrite Nat.sub_diag; done).
      eapply (step_gor _ _ _ (length gs)); [apply list_lookup_middle; done|cbn; by rewrite E].
    - injection H as ->. exists [GEnd]. constructor.
  Qed.
  Lemma inline_schedule t m r : inline t m = Ret r -> forall gs, exists c, rtc step (Run t gs m) c /\ returned c r.
  Proof.
    revert m. induction t as [A c k IH|g k IH|a k IH|A f k IH|r']; intros m H gs; cbn in H.
    - destruct c as [x| |]; try done. cbn in H. destruct (IH x m H gs) as (c & Hc & Hr). exists c. split; [|done]. eapply rtc_l; [|exact Hc]. by apply step_main.
    - apply rbind_inv in H as (m' & Hg & H). destruct (gor_inline_steps g k gs m m' Hg) as [gs' Hs]. destruct (IH m' H (gs ++ gs')) as (c & Hc & Hr). exists c. split; [|done].
      eapply rtc_l; [by apply step_main|]. etransitivity; [exact Hs|exact Hc].
    - destruct (a m) as [| |m'] eqn:E; try done. destruct (IH m' H gs) as (c & Hc & Hr). exists c. split; [|done]. eapply rtc_l; [|exact Hc]. apply step_main. cbn. by rewrite E.
    - destruct (IH (f m) m H gs) as (c & Hc & Hr). exists c. split; [|done]. eapply rtc_l; [|exact Hc]. by apply step_main.
    - injection H as ->. exists (Run (MReturn r) gs m). split; [constructor|]. by exists gs, m.
  Qed.
End Generic.

(** Number of the states with property b *)
Fixpoint cnt {A} (b : A -> nat) (l : list A) : nat := match l with [] => 0%nat | a :: l => (b a + cnt b l)%nat end.
Lemma cnt_app {A} (b : A -> nat) l k : cnt b (l ++ k) = (cnt b l + cnt b k)%nat.
Proof. induction l as [|a l IH]; [done|]. cbn [app cnt]. lia. Qed.
Lemma cnt_insert {A} (b : A -> nat) l i a a' : l !! i = Some a -> (cnt b (<[i := a']> l) + b a = cnt b l + b a')%nat.
Proof.
  revert i. induction l as [|x l IH]; intros [|i] H; try discriminate H.
  - injection H as ->. change (<[0%nat := a']> (a :: l)) with (a' :: l). cbn [cnt]. lia.
  - specialize (IH i H). change (<[S i := a']> (x :: l)) with (x :: <[i := a']> l). cbn [cnt]. lia.
Qed.
Lemma cnt_le {A} (b : A -> nat) l : (forall a, b a <= 1)%nat -> (cnt b l <= length l)%nat.
Proof. intros H. induction l as [|x l IH]; [done|]. cbn [cnt length]. specialize (H x). lia. Qed.
Lemma cnt_full {A} (b : A -> nat) l : (forall a, b a <= 1)%nat -> cnt b l = length l -> forall i a, l !! i = Some a -> b a = 1%nat.
Proof.
  intros Hb. induction l as [|x l IH]; intros H [|i] a Ha; try discriminate Ha; cbn [cnt length] in H; pose proof (cnt_le b l Hb) as Hl; pose proof (Hb x) as Hx.
  - injection Ha as ->. lia.
  - apply (IH ltac:(lia) i a Ha).
Qed.
Lemma cnt_not_full {A} (b : A -> nat) l : (forall a, b a <= 1)%nat -> (cnt b l < length l)%nat -> exists i a, l !! i = Some a /\ b a = 0%nat.
Proof.
  intros Hb. induction l as [|x l IH]; intros H; cbn [cnt length] in H; [lia|]. destruct (decide (b x = 0%nat)) as [E|E]; [exists 0%nat, x; done|].
  destruct IH as (i & a & Ha & Hz); [specialize (Hb x); lia|]. exists (S i), a. done.
Qed.
Lemma cnt_one {A} (b : A -> nat) l i j a a' : l !! i = Some a -> l !! j = Some a' -> b a = 1%nat -> b a' = 1%nat -> (cnt b l <= 1)%nat -> i = j.
Proof.
  intros Hi Hj Ha Ha' Hc. destruct (decide (i = j)) as [|Hne]; [done|exfalso]. revert i j Hi Hj Hne Hc. induction l as [|x l IH]; intros [|i] [|j] Hi Hj Hne Hc; try done; cbn [cnt] in Hc.
  - injection Hi as ->. assert (b a' <= cnt b l)%nat; [|lia]. clear -Hj. revert j Hj. induction l as [|y l IH]; intros [|j] Hj; try discriminate Hj; cbn [cnt]; [injection Hj as ->; lia|]. specialize (IH j Hj). lia.
  - injection Hj as ->. assert (b a <= cnt b l)%nat; [|lia]. clear -Hi. revert i Hi. induction l as [|y l IH]; intros [|i] Hi; try discriminate Hi; cbn [cnt]; [injection Hi as ->; lia|]. specialize (IH i Hi). lia.
  - apply (IH i j); try done; lia.
Qed.

(** ** Verification *)
Lemma snoc_lookup {A} (l : list A) a i y : (l ++ [a]) !! i = Some y -> ((i < length l)%nat /\ l !! i = Some y) \/ (i = length l /\ a = y).
Proof.
  intros H. apply lookup_app_Some in H as [H|[Hl H]]; [left; split; [by eapply lookup_lt_Some|done]|]. right. destruct (i - length l)%nat as [|j] eqn:E; [|done]. injection H as ->. split; [lia|done].
Qed.
Section Verify.
  Context {C : Curve}.
  Variable (lp : LiabilityProof C) (pp : PolPP C) (id : string) (V W : G1 C) (id2path : string -> res path).
  Let verdict (x : RangeProof C * G1 C) : res error := VerifyRange (po_RPPP pp) (fst x) (snd x).
  Let sequential : res error := LiabilityProof_Verify lp pp id V W id2path.

  (** *** The sequential run *)
  Lemma verify_loop_app p l1 l2 st : verify_loop pp lp p (l1 ++ l2) st =
    let! r := verify_loop pp lp p l1 st in match r with inl st' => verify_loop pp lp p l2 st' | inr e => Ret (inr e) end.
  Proof.
    revert st. induction l1 as [|i l1 IH]; intros st; [done|]. cbn [app verify_loop]. destruct (verify_args lp p i) as [[rp V']| |]; [|done..]. cbn [rbind].
    destruct (VerifyRange _ rp V') as [e| |]; [|done..]. cbn [rbind]. destruct (verify_digest lp p i) as [e'| |]; [|done..]. cbn [rbind]. destruct e'; [apply IH|done].
  Qed.
  Lemma loop_ret p l st r : verify_loop pp lp p l st = Ret r -> (forall i, i ∈ l -> verify_digest lp p i = Ret nil_error) ->
    exists st', r = inl st' /\ (forall i, i ∈ l -> exists x e, verify_args lp p i = Ret x /\ verdict x = Ret e /\ (e <> nil_error -> st' <> nil_error)) /\
      (st <> nil_error -> st' <> nil_error) /\
      ((forall i x, i ∈ l -> verify_args lp p i = Ret x -> verdict x = Ret nil_error) -> st' = st) /\
      (st' = st \/ exists i x, i ∈ l /\ verify_args lp p i = Ret x /\ verdict x = Ret st').
  Proof.
    revert st. induction l as [|i l IH]; intros st H Hd; cbn [verify_loop] in H.
    - injection H as <-. exists st. split_and!; try done; [|by left]. intros i Hi. by apply elem_of_nil in Hi.
    - apply rbind_inv in H as ([rp V'] & Ha & H). apply rbind_inv in H as (e & Hv & H). rewrite Hd in H by left. cbn [rbind] in H.
      apply IH in H as (st' & -> & H1 & H2 & H3 & H4); [|intros; apply Hd; by right]. exists st'. split; [done|]. split; [|split; [|split]].
      + intros j Hj. apply elem_of_cons in Hj as [->|Hj]; [|by apply H1]. exists (rp, V'), e. split; [done|]. split; [done|]. intros He. apply H2. destruct e; done.
      + intros Hst. apply H2. destruct e; done.
      + intros Hok. rewrite H3; [|intros j x Hj; apply Hok; by right]. specialize (Hok i (rp, V') ltac:(left) Ha). unfold verdict in Hok. cbn in Hok. rewrite Hv in Hok. injection Hok as ->. done.
      + destruct H4 as [->|(j & x & Hj & Hx & Hvx)]; [|right; exists j, x; split; [by right|done]]. destruct e; [by left|]. right. exists i, (rp, V'). split; [by left|done].
  Qed.

  (** Everything the main thread has checked before iteration k *)
  Definition ok (p : path) (k : nat) : Prop :=
    id2path id = Ret p /\ verify_header lp p V W = Ret nil_error /\ (forall i, (i < k)%nat -> verify_digest lp p i = Ret nil_error).
  Lemma ok_mono p k j : ok p k -> (j <= k)%nat -> ok p j.
  Proof. intros (H1 & H2 & H3) Hj. split; [done|]. split; [done|]. intros i Hi. apply H3. lia. Qed.
  Lemma seq_header e : sequential = Ret e -> forall p, id2path id = Ret p -> exists e', verify_header lp p V W = Ret e' /\ (e' <> nil_error -> e = e').
  Proof.
    unfold sequential, LiabilityProof_Verify. intros H p Hp. rewrite Hp in H. cbn [rbind] in H. apply rbind_inv in H as (e' & He & H). exists e'. split; [done|]. destruct e'; [done|]. intros _. injection H as <-. done.
  Qed.
  Lemma seq_loop_at e p k : sequential = Ret e -> ok p k -> (k <= length p)%nat -> exists st, verify_loop pp lp p (seq 0 k) nil_error = Ret (inl st) /\
    (forall i, (i < k)%nat -> exists x e, verify_args lp p i = Ret x /\ verdict x = Ret e /\ (e <> nil_error -> st <> nil_error)) /\
    ((forall i x, (i < k)%nat -> verify_args lp p i = Ret x -> verdict x = Ret nil_error) -> st = nil_error) /\
    (st = nil_error \/ exists i x, (i < k)%nat /\ verify_args lp p i = Ret x /\ verdict x = Ret st) /\
    (let! r := verify_loop pp lp p (seq k (length p - k)) st in
     match r with inr e => Ret e | inl stored =>
     let! e := verify_arguments pp lp p in
     match e with Err _ => Ret e | nil_error =>
     match stored with Err _ => Ret stored | nil_error => verify_liability pp lp p end end end) = Ret e.
  Proof.
    unfold sequential, LiabilityProof_Verify. intros H (H1 & H2 & H3) Hk. rewrite H1 in H. cbn [rbind] in H. rewrite H2 in H. cbn [rbind] in H.
    replace (seq 0 (length p)) with (seq 0 k ++ seq k (length p - k)) in H by (rewrite <- seq_app; f_equal; lia). rewrite verify_loop_app in H.
    destruct (verify_loop pp lp p (seq 0 k) nil_error) as [r| |] eqn:E; [|done..]. apply loop_ret in E as (st & -> & L1 & _ & L3 & L4); [|intros i Hi; apply H3; apply elem_of_seq in Hi; lia].
    exists st. split; [done|]. split; [intros i Hi; apply L1, elem_of_seq; lia|]. split; [intros Hok; apply L3; intros i x Hi; apply Hok; apply elem_of_seq in Hi; lia|].
    split; [|exact H]. destruct L4 as [->|(i & x & Hi & Hx)]; [by left|]. right. exists i, x. split; [apply elem_of_seq in Hi; lia|done].
  Qed.
  (** If the sequential run returns, the next thing checked after [ok p k] returns as well. *)
  Lemma seq_next e p k : sequential = Ret e -> ok p k -> (k < length p)%nat -> exists x e1 e2, verify_args lp p k = Ret x /\ verdict x = Ret e1 /\
    verify_digest lp p k = Ret e2 /\ (e2 <> nil_error -> e = e2).
  Proof.
    intros H Hok Hk. destruct (seq_loop_at e p k H Hok ltac:(lia)) as (st & _ & _ & _ & _ & E). replace (length p - k)%nat with (S (length p - S k)) in E by lia. cbn [seq verify_loop] in E.
    apply rbind_inv in E as (r & E & E2). apply rbind_inv in E as ([rp V'] & Ha & E). apply rbind_inv in E as (e1 & Hv & E). apply rbind_inv in E as (e2 & Hd & E).
    exists (rp, V'), e1, e2. split_and!; try done. intros He. destruct e2; [done|]. injection E as <-. injection E2 as <-. done.
  Qed.
  Lemma seq_arguments e p : sequential = Ret e -> ok p (length p) -> exists e1, verify_arguments pp lp p = Ret e1 /\ (e1 <> nil_error -> e = e1).
  Proof.
    intros H Hok. destruct (seq_loop_at e p (length p) H Hok ltac:(lia)) as (st & _ & _ & _ & _ & E). rewrite Nat.sub_diag in E. cbn [seq verify_loop rbind] in E.
    apply rbind_inv in E as (e1 & Ha & E). exists e1. split; [done|]. destruct e1; [done|]. intros _. injection E as <-. done.
  Qed.
  Lemma seq_liability e p : sequential = Ret e -> ok p (length p) -> verify_arguments pp lp p = Ret nil_error ->
    (forall i x, (i < length p)%nat -> verify_args lp p i = Ret x -> verdict x = Ret nil_error) -> verify_liability pp lp p = Ret e.
  Proof.
    intros H Hok Ha Hv. destruct (seq_loop_at e p (length p) H Hok ltac:(lia)) as (st & _ & _ & Hst & _ & E). rewrite Hst in E by done. rewrite Nat.sub_diag in E. cbn [seq verify_loop rbind] in E. rewrite Ha in E. exact E.
  Qed.
  Lemma seq_range_error e p i x msg : sequential = Ret e -> ok p (length p) -> (i < length p)%nat -> verify_args lp p i = Ret x -> verdict x = Ret (Err msg) -> e <> nil_error.
  Proof.
    intros H Hok Hi Hx Hv. destruct (seq_loop_at e p (length p) H Hok ltac:(lia)) as (st & _ & L1 & _ & _ & E). destruct (L1 i Hi) as (x' & e' & Hx' & Hv' & Hst). rewrite Hx in Hx'. injection Hx' as <-.
    rewrite Hv in Hv'. injection Hv' as <-. assert (Hne : st <> nil_error) by by apply Hst. rewrite Nat.sub_diag in E. cbn [seq verify_loop rbind] in E. apply rbind_inv in E as (e1 & _ & E). destruct e1; [|by injection E as <-]. destruct st; [done|]. by injection E as <-.
  Qed.
  (** All checks pass: the sequential run accepts. *)
  Lemma seq_accepts p : ok p (length p) -> (forall i, (i < length p)%nat -> exists x, verify_args lp p i = Ret x /\ verdict x = Ret nil_error) ->
    verify_arguments pp lp p = Ret nil_error -> sequential = verify_liability pp lp p.
  Proof.
    intros (H1 & H2 & H3) Hv Ha. unfold sequential, LiabilityProof_Verify. rewrite H1. cbn [rbind]. rewrite H2. cbn [rbind].
    rewrite (proj2 (verify_loop_accept pp lp p (seq 0 (length p)) nil_error)); [cbn [rbind]; rewrite Ha; done|]. split; [done|]. apply Forall_forall. intros i Hi. apply elem_of_seq in Hi. destruct (Hv i) as ([rp V'] & Hx & Hvx); [lia|].
    split; [by exists rp, V'|apply H3; lia].
  Qed.

  (** *** The goroutines *)
  Inductive gstate : Type := G_start | G_store (msg : string) | G_done | G_end.
  Definition g_of (x : RangeProof C * G1 C) (s : gstate) : goroutine VMem :=
    match s with
    | G_start => verifyRangeProof pp (fst x) (snd x)
    | G_store msg => GAct (v_store (Err msg)) (GAct v_done GEnd)
    | G_done => GAct v_done GEnd
    | G_end => GEnd
    end.
  Definition g_ok (x : RangeProof C * G1 C) (s : gstate) (err : error) : Prop :=
    match s with
    | G_start => True
    | G_store msg => verdict x = Ret (Err msg)
    | G_done | G_end => exists e, verdict x = Ret e /\ (e <> nil_error -> err <> nil_error)
    end.
  Definition ended (s : gstate) : nat := match s with G_end => 1%nat | _ => 0%nat end.
  Lemma ended_le s : (ended s <= 1)%nat. Proof. destruct s; cbn; lia. Qed.
  (** The goroutines of the first k iterations *)
  Definition pool (p : path) (k : nat) (gs : list (goroutine VMem)) (m : VMem) : Prop :=
    exists sp st, length sp = k /\ length st = k /\ gs = zip_with g_of sp st /\
      (forall i x, sp !! i = Some x -> verify_args lp p i = Ret x) /\
      (forall i x s, sp !! i = Some x -> st !! i = Some s -> g_ok x s (vm_err m)) /\
      vm_wg m = (Z.of_nat (length p) - Z.of_nat (cnt ended st))%Z /\
      (forall msg, vm_err m = Err msg -> exists i x, sp !! i = Some x /\ verdict x = Ret (Err msg)).

  Lemma pool_go p k gs m x : pool p k gs m -> verify_args lp p k = Ret x -> pool p (S k) (gs ++ [verifyRangeProof pp (fst x) (snd x)]) m.
  Proof.
    intros (sp & st & L1 & L2 & -> & H1 & H2 & H3 & H4) Hx. exists (sp ++ [x]), (st ++ [G_start]). rewrite !app_length, L1, L2. split; [cbn; lia|]. split; [cbn; lia|].
    split; [rewrite zip_with_app by lia; done|]. split; [|split; [|split]].
    - intros i y Hy. apply snoc_lookup in Hy as [[_ Hy]|[-> <-]]; [by apply H1|]. rewrite L1. done.
    - intros i y s Hy Hs. apply snoc_lookup in Hy as [[Hlt Hy]|[-> <-]].
      + rewrite lookup_app_l in Hs by lia. by apply (H2 i y s).
      + rewrite L1, <- L2, list_lookup_middle in Hs by done. injection Hs as <-. done.
    - rewrite cnt_app. cbn [cnt ended]. rewrite H3. lia.
    - intros msg E. destruct (H4 msg E) as (i & y & Hy & Hv). exists i, y. split; [|done]. rewrite lookup_app_l by (by eapply lookup_lt_Some). done.
  Qed.
  (** A step of a goroutine keeps the pool; it crashes only if its verification does. *)
  Lemma pool_step p k gs m i g : pool p k gs m -> (k <= length p)%nat -> gs !! i = Some g ->
    (i < k)%nat /\ exists x, verify_args lp p i = Ret x /\
    match gor_step g m with
    | Next (g', m') => pool p k (<[i := g']> gs) m' /\ (vm_wg m = 0%Z -> m' = m) /\ (vm_err m' = vm_err m \/ verdict x = Ret (vm_err m'))
    | Crash => verdict x = Panic
    | Blocked => g = GEnd \/ (gor_hangs g = true /\ verdict x = Hang)
    end.
  Proof.
    intros (sp & st & L1 & L2 & -> & H1 & H2 & H3 & H4) Hk Hg. apply lookup_zip_with_Some in Hg as (x & s & -> & Hx & Hs). pose proof (lookup_lt_Some _ _ _ Hx) as Hi. split; [lia|].
    exists x. split; [by apply H1|]. pose proof (cnt_le ended st ended_le) as Hcl. pose proof (H2 i x s Hx Hs) as Hok.
    assert (Upd : forall s' m', g_ok x s' (vm_err m') -> (vm_err m <> nil_error -> vm_err m' <> nil_error) ->
      vm_wg m' = (vm_wg m + Z.of_nat (ended s) - Z.of_nat (ended s'))%Z -> (forall msg, vm_err m' = Err msg -> vm_err m = Err msg \/ verdict x = Ret (Err msg)) ->
      pool p k (<[i := g_of x s']> (zip_with g_of sp st)) m').
    { intros s' m' Ho He Hw Hm. exists sp, (<[i := s']> st). rewrite insert_length. split; [done|]. split; [done|]. split.
      { apply list_eq. intros j. destruct (decide (j = i)) as [->|Hne].
        - rewrite list_lookup_insert by (rewrite zip_with_length; lia). rewrite lookup_zip_with. rewrite Hx. cbn. rewrite list_lookup_insert by lia. done.
        - rewrite list_lookup_insert_ne by done. rewrite !lookup_zip_with. destruct (sp !! j); [|done]. cbn. rewrite list_lookup_insert_ne by done. done. }
      split; [done|]. split; [|split].
      - intros j y s2 Hy Hs2. destruct (decide (j = i)) as [->|Hne].
        + rewrite list_lookup_insert in Hs2 by lia. injection Hs2 as <-. rewrite Hx in Hy. injection Hy as <-. done.
        + rewrite list_lookup_insert_ne in Hs2 by done. pose proof (H2 j y s2 Hy Hs2) as Hj. destruct s2; cbn in Hj |- *; try done; destruct Hj as (e & E1 & E2); exists e; (split; [done|]; intros Hne'; apply He, E2, Hne').
      - pose proof (cnt_insert ended st i s s' Hs) as Hc. lia.
      - intros msg E. destruct (Hm msg E) as [E'|E']; [by apply H4|by exists i, x]. }
    destruct s as [|msg| |]; cbn [g_of].
    - unfold verifyRangeProof. cbn [gor_step gor_hangs]. change (VerifyRange (po_RPPP pp) (fst x) (snd x)) with (verdict x). destruct (verdict x) as [e| |] eqn:Ev; [|done|by right].
      destruct e as [|msg].
      + split; [apply (Upd G_done m); cbn; try done; [by exists nil_error|lia|by left]|]. split; [done|by left].
      + split; [apply (Upd (G_store msg) m); cbn; try done; [lia|by left]|]. split; [done|by left].
    - cbn [gor_step v_store]. split; [|split].
      + apply (Upd G_done); cbn; try done; [exists (Err msg); done|lia|]. intros msg' [= <-]. right. done.
      + intros Hw. pose proof (cnt_insert ended st i (G_store msg) G_end Hs) as Hc. pose proof (cnt_le ended (<[i := G_end]> st) ended_le) as Hc2. rewrite insert_length in Hc2. cbn [ended] in Hc. lia.
      + right. exact Hok.
    - cbn [gor_step]. unfold v_done. pose proof (cnt_insert ended st i G_done G_end Hs) as Hc. pose proof (cnt_le ended (<[i := G_end]> st) ended_le) as Hc2. rewrite insert_length in Hc2. cbn [ended] in Hc.
      destruct (Z.leb_spec (vm_wg m) 0) as [Hle|Hgt]; [lia|]. split; [|split; [lia|by left]]. apply (Upd G_end); cbn; try done; [lia|by left].
    - cbn. by left.
  Qed.
  (** Once the counter is zero, every goroutine has ended. *)
  Lemma pool_finished p gs m : pool p (length p) gs m -> vm_wg m = 0%Z ->
    forall i, (i < length p)%nat -> exists x e, verify_args lp p i = Ret x /\ verdict x = Ret e /\ (e <> nil_error -> vm_err m <> nil_error).
  Proof.
    intros (sp & st & L1 & L2 & -> & H1 & H2 & H3 & H4) Hw i Hi. destruct (lookup_lt_is_Some_2 sp i) as [x Hx]; [lia|]. destruct (lookup_lt_is_Some_2 st i) as [s Hs]; [lia|].
    pose proof (cnt_full ended st ended_le ltac:(lia) i s Hs) as He. pose proof (H2 i x s Hx Hs) as Hok. destruct s; cbn in He; try lia. destruct Hok as (e & E1 & E2). exists x, e. split; [by apply H1|done].
  Qed.
  (** While the counter is not zero, some goroutine can go on. *)
  Lemma pool_alive p gs m : pool p (length p) gs m -> vm_wg m <> 0%Z -> exists i g, gs !! i = Some g /\ (gor_hangs g = true \/ gor_step g m <> Blocked).
  Proof.
    intros Hpool Hw. pose proof Hpool as (sp & st & L1 & L2 & -> & H1 & H2 & H3 & H4). pose proof (cnt_le ended st ended_le) as Hcl. destruct (cnt_not_full ended st ended_le ltac:(lia)) as (i & s & Hs & He).
    destruct (lookup_lt_is_Some_2 sp i) as [x Hx]; [apply lookup_lt_Some in Hs; lia|]. assert (Hg : zip_with g_of sp st !! i = Some (g_of x s)) by (rewrite lookup_zip_with, Hx; cbn; rewrite Hs; done).
    exists i, (g_of x s). split; [done|]. destruct (pool_step p (length p) _ m i _ Hpool ltac:(lia) Hg) as (_ & y & _ & Hstep). destruct (gor_step (g_of x s) m) as [| |]; [|by right..].
    destruct Hstep as [E|[E _]]; [|by left]. destruct s; cbn in E; try discriminate E. cbn in He. lia.
  Qed.
  Lemma pool_start p : pool p 0 [] (MkVM (0 + Z.of_nat (length p)) nil_error).
  Proof. exists [], []. split_and!; try done. cbn. lia. Qed.

  (** *** The main thread *)
  (** A returned verdict agrees with the sequential one on acceptance; if both are rejections, they are the same or the returned
      one comes from a range proof. *)
  Definition ret_ok (e : error) : Prop := (e = nil_error <-> sequential = Ret nil_error) /\
    (forall e', sequential = Ret e' -> e = e' \/ exists p i x, id2path id = Ret p /\ (i < length p)%nat /\ verify_args lp p i = Ret x /\ verdict x = Ret e).
  Definition after_wait (p : path) : main VMem error :=
    MRead vm_err (fun stored => match stored with Err _ => MReturn stored | nil_error => MCall (verify_liability pp lp p) MReturn end).
  Definition after_go (p : path) (k : nat) : main VMem error :=
    MCall (verify_digest lp p k) (fun e => match e with Err _ => MReturn e | nil_error => par_loop pp lp p (seq (S k) (length p - S k)) end).
  Inductive inv : process VMem error -> Prop :=
  | inv_start : inv (Verify_process lp pp id V W id2path)
  | inv_header p : id2path id = Ret p -> inv (Run (MCall (verify_header lp p V W) (fun e => match e with Err _ => MReturn e | nil_error =>
      MAct (v_add (Z.of_nat (length p))) (par_loop pp lp p (seq 0 (length p))) end)) [] (MkVM 0 nil_error))
  | inv_add p : ok p 0 -> inv (Run (MAct (v_add (Z.of_nat (length p))) (par_loop pp lp p (seq 0 (length p)))) [] (MkVM 0 nil_error))
  | inv_loop p k gs m : ok p k -> (k < length p)%nat -> pool p k gs m -> inv (Run (par_loop pp lp p (seq k (length p - k))) gs m)
  | inv_go p k gs m x : ok p k -> (k < length p)%nat -> pool p k gs m -> verify_args lp p k = Ret x ->
      inv (Run (MGo (verifyRangeProof pp (fst x) (snd x)) (after_go p k)) gs m)
  | inv_digest p k gs m : ok p k -> (k < length p)%nat -> pool p (S k) gs m -> inv (Run (after_go p k) gs m)
  | inv_tail p gs m : ok p (length p) -> pool p (length p) gs m -> inv (Run (par_tail pp lp p) gs m)
  | inv_wait p gs m : ok p (length p) -> pool p (length p) gs m -> verify_arguments pp lp p = Ret nil_error -> inv (Run (MAct v_wait (after_wait p)) gs m)
  | inv_read p gs m : ok p (length p) -> pool p (length p) gs m -> verify_arguments pp lp p = Ret nil_error -> vm_wg m = 0%Z -> inv (Run (after_wait p) gs m)
  | inv_liability p gs m : ok p (length p) -> pool p (length p) gs m -> verify_arguments pp lp p = Ret nil_error -> vm_wg m = 0%Z -> vm_err m = nil_error ->
      inv (Run (MCall (verify_liability pp lp p) MReturn) gs m)
  | inv_return e gs m : ret_ok e -> (gs = [] \/ exists p k, ok p k /\ (k <= length p)%nat /\ ((pool p k gs m) \/ ((k < length p)%nat /\ pool p (S k) gs m))) -> inv (Run (MReturn e) gs m)
  | inv_crashed : (forall e, sequential <> Ret e) -> inv Crashed.

  Lemma inv_next p k gs m : ok p k -> (k <= length p)%nat -> pool p k gs m -> inv (Run (par_loop pp lp p (seq k (length p - k))) gs m).
  Proof.
    intros Hok Hk Hpool. destruct (decide (k = length p)) as [->|Hne]; [rewrite Nat.sub_diag; by apply inv_tail|]. apply inv_loop; [done|lia|done].
  Qed.
  (** A goroutine started so far crashes or hangs only if the sequential run does. *)
  Lemma gor_verdict p k i x e : ok p k -> (i <= k)%nat -> (i < length p)%nat -> verify_args lp p i = Ret x -> sequential = Ret e -> exists e', verdict x = Ret e'.
  Proof.
    intros Hok Hik Hi Hx Hs. destruct (seq_next e p i Hs (ok_mono p k i Hok Hik) Hi) as (x' & e1 & _ & Hx' & Hv & _). rewrite Hx in Hx'. injection Hx' as <-. by exists e1.
  Qed.
  Lemma reject_digest p k msg : ok p k -> (k < length p)%nat -> verify_digest lp p k = Ret (Err msg) -> ret_ok (Err msg).
  Proof.
    intros Hok Hk Hd. assert (G : forall e, sequential = Ret e -> e = Err msg).
    { intros e Hs. destruct (seq_next e p k Hs Hok Hk) as (x & e1 & e2 & _ & _ & Hd' & He). rewrite Hd in Hd'. injection Hd' as <-. by apply He. }
    split; [split; [done|]; intros Hs; apply G in Hs; done|]. intros e Hs. left. symmetry. by apply G.
  Qed.
  Lemma reject_arguments p msg : ok p (length p) -> verify_arguments pp lp p = Ret (Err msg) -> ret_ok (Err msg).
  Proof.
    intros Hok Hd. assert (G : forall e, sequential = Ret e -> e = Err msg).
    { intros e Hs. destruct (seq_arguments e p Hs Hok) as (e2 & Hd' & He). rewrite Hd in Hd'. injection Hd' as <-. by apply He. }
    split; [split; [done|]; intros Hs; apply G in Hs; done|]. intros e Hs. left. symmetry. by apply G.
  Qed.
  Lemma reject_range p i x msg : ok p (length p) -> (i < length p)%nat -> verify_args lp p i = Ret x -> verdict x = Ret (Err msg) -> ret_ok (Err msg).
  Proof.
    intros Hok Hi Hx Hv. destruct Hok as (Hid & Hok). split; [|intros e Hs; right; by exists p, i, x]. split; [done|]. intros Hs. exfalso. by apply (seq_range_error _ p i x msg Hs (conj Hid Hok) Hi Hx Hv).
  Qed.
  Lemma all_ranges p gs m : pool p (length p) gs m -> vm_wg m = 0%Z -> vm_err m = nil_error ->
    forall i, (i < length p)%nat -> exists x, verify_args lp p i = Ret x /\ verdict x = Ret nil_error.
  Proof.
    intros Hpool Hw He i Hi. destruct (pool_finished p gs m Hpool Hw i Hi) as (x & e & Hx & Hv & Hne). exists x. split; [done|]. destruct e as [|msg]; [done|]. exfalso. by apply Hne.
  Qed.

  (** A step of a goroutine keeps the invariant. *)
  Lemma inv_gor p k j t gs m i g : ok p k -> (j <= length p)%nat -> (j <= S k)%nat -> pool p j gs m -> gs !! i = Some g ->
    (forall g' m', gor_step g m = Next (g', m') -> pool p j (<[i := g']> gs) m' -> (vm_wg m = 0%Z -> m' = m) -> inv (Run t (<[i := g']> gs) m')) ->
    match gor_step g m with Next (g', m') => inv (Run t (<[i := g']> gs) m') | Crash => inv Crashed | Blocked => True end.
  Proof.
    intros Hok Hj Hjk Hpool Hg Hnext. destruct (pool_step p j gs m i g Hpool Hj Hg) as (Hi & x & Hx & Hstep). destruct (gor_step g m) as [| |[g' m']] eqn:E; [done| |].
    - apply inv_crashed. intros e Hs. destruct (gor_verdict p k i x e Hok ltac:(lia) ltac:(lia) Hx Hs) as [e' Hv]. rewrite Hv in Hstep. done.
    - destruct Hstep as (H1 & H2 & _). by apply Hnext.
  Qed.
  Lemma inv_step c c' : inv c -> step c c' -> inv c'.
  Proof.
    intros Hinv Hs. destruct Hs as [t gs m t' gs' m' Hm|t gs m Hm|t gs m i g g' m' Hg Hm|t gs m i g Hg Hm].
    - (* main thread *)
      inversion Hinv; subst; cbn in Hm.
      + destruct (id2path id) as [p| |] eqn:Ep; [|done..]. injection Hm as <- <- <-. by apply inv_header.
      + destruct (verify_header lp p V W) as [e| |] eqn:Eh; [|done..]. injection Hm as <- <- <-. destruct e as [|msg].
        * apply inv_add. split; [done|]. split; [done|]. intros i Hi. lia.
        * apply inv_return; [|by left]. assert (G : forall e, sequential = Ret e -> e = Err msg).
          { intros e Hs. destruct (seq_header e Hs p) as (e' & He' & E); [done|]. rewrite Eh in He'. injection He' as <-. by apply E. }
          split; [split; [done|]; intros Hs; apply G in Hs; done|]. intros e Hs. left. symmetry. by apply G.
      + injection Hm as <- <- <-. replace (length p) with (length p - 0)%nat at 1 by lia. apply inv_next; [done|lia|apply pool_start].
      + replace (length p - k)%nat with (S (length p - S k)) in Hm by lia. cbn in Hm. destruct (verify_args lp p k) as [[rp V']| |] eqn:Ea; [|done..]. injection Hm as <- <- <-. apply (inv_go p k gs m (rp, V')); done.
      + injection Hm as <- <- <-. apply inv_digest; [done|done|]. by apply pool_go.
      + destruct (verify_digest lp p k) as [e| |] eqn:Ed; [|done..]. injection Hm as <- <- <-. destruct e as [|msg].
        * apply inv_next; [|lia|done]. match goal with H : ok _ _ |- _ => destruct H as (O1 & O2 & O3) end. split; [done|]. split; [done|]. intros i Hi. destruct (decide (i = k)) as [->|]; [done|]. apply O3. lia.
        * apply inv_return; [by apply (reject_digest p k)|]. right. exists p, k. split; [done|]. split; [lia|]. by right.
      + destruct (verify_arguments pp lp p) as [e| |] eqn:Ea; [|done..]. injection Hm as <- <- <-. destruct e as [|msg].
        * by apply inv_wait.
        * apply inv_return; [by apply (reject_arguments p)|]. right. exists p, (length p). split; [done|]. split; [lia|]. by left.
      + destruct (v_wait m) as [| |m1] eqn:Ew; [done..|]. unfold v_wait in Ew. destruct (Z.eqb_spec (vm_wg m) 0); [|done]. injection Ew as <-. injection Hm as <- <- <-. by apply inv_read.
      + injection Hm as <- <- <-. destruct (vm_err m) as [|msg] eqn:Ee; [by apply inv_liability|]. apply inv_return; [|right; exists p, (length p); split; [done|]; split; [lia|]; by left].
        match goal with H : pool _ _ _ _ |- _ => pose proof H as (sp & st & L1 & L2 & _ & P1 & _ & _ & P4) end. destruct (P4 msg Ee) as (i & x & Hx & Hv). apply (reject_range p i x msg); [done|apply lookup_lt_Some in Hx; lia|by apply P1|done].
      + destruct (verify_liability pp lp p) as [e| |] eqn:El; [|done..]. injection Hm as <- <- <-. apply inv_return; [|right; exists p, (length p); split; [done|]; split; [lia|]; by left].
        assert (Es : sequential = Ret e) by (rewrite <- El; apply seq_accepts; [done| |done]; by apply (all_ranges p gs m)).
        split; [rewrite Es; split; [by intros ->|by intros [= ->]]|]. rewrite Es. intros e' [= ->]. by left.
      + done.
    - (* main thread panics *)
      apply inv_crashed. intros e Hs. inversion Hinv; subst; cbn in Hm.
      + unfold sequential, LiabilityProof_Verify in Hs. destruct (id2path id); [done|done|done].
      + destruct (seq_header e Hs p) as (e' & He' & _); [done|]. rewrite He' in Hm. done.
      + done.
      + replace (length p - k)%nat with (S (length p - S k)) in Hm by lia. cbn in Hm. destruct (seq_next e p k Hs) as (x & e1 & e2 & Ha & _); [done|done|]. rewrite Ha in Hm. done.
      + done.
      + destruct (seq_next e p k Hs) as (x & e1 & e2 & _ & _ & Hd & _); [done|done|]. rewrite Hd in Hm. done.
      + destruct (seq_arguments e p Hs) as (e1 & Ha & _); [done|]. rewrite Ha in Hm. done.
      + unfold v_wait in Hm. destruct (vm_wg m =? 0)%Z; done.
      + done.
      + rewrite (seq_liability e p Hs) in Hm; [done..|]. intros i x Hi Hx. destruct (all_ranges p gs m ltac:(done) ltac:(done) ltac:(done) i Hi) as (x' & Hx' & Hv). rewrite Hx in Hx'. injection Hx' as <-. done.
      + done.
    - (* goroutine *)
      assert (G : forall p k j, ok p k -> (j <= length p)%nat -> (j <= S k)%nat -> pool p j gs m ->
        (pool p j (<[i := g']> gs) m' -> (vm_wg m = 0%Z -> m' = m) -> inv (Run t (<[i := g']> gs) m')) -> inv (Run t (<[i := g']> gs) m')).
      { intros p k j Hok Hj Hjk Hpool Hn. pose proof (inv_gor p k j t gs m i g Hok Hj Hjk Hpool Hg) as HG. rewrite Hm in HG. apply HG. intros g2 m2 [= -> ->]. done. }
      inversion Hinv; subst; try (rewrite lookup_nil in Hg; discriminate Hg).
      + apply (G p k k); [done|lia|lia|done|]. intros ? _. by apply inv_loop.
      + apply (G p k k); [done|lia|lia|done|]. intros ? _. by apply inv_go.
      + apply (G p k (S k)); [done|lia|lia|done|]. intros ? _. by apply inv_digest.
      + apply (G p (length p) (length p)); [done|lia|lia|done|]. intros ? _. by apply inv_tail.
      + apply (G p (length p) (length p)); [done|lia|lia|done|]. intros ? _. by apply inv_wait.
      + apply (G p (length p) (length p)); [done|lia|lia|done|]. intros ? E. rewrite E in * by done. by apply inv_read.
      + apply (G p (length p) (length p)); [done|lia|lia|done|]. intros ? E. rewrite E in * by done. by apply inv_liability.
      + match goal with H : _ = [] \/ _ |- _ => destruct H as [->|(p & k & Hok & Hk & [Hpool|[Hlt Hpool]])] end; [rewrite lookup_nil in Hg; discriminate Hg| |].
        * apply (G p k k); [done|lia|lia|done|]. intros ? _. apply inv_return; [done|]. right. exists p, k. split_and!; [done|lia|by left].
        * apply (G p k (S k)); [done|lia|lia|done|]. intros ? _. apply inv_return; [done|]. right. exists p, k. split_and!; [done|lia|by right].
    - (* goroutine panics *)
      assert (G : forall p k j, ok p k -> (j <= length p)%nat -> (j <= S k)%nat -> pool p j gs m -> inv Crashed).
      { intros p k j Hok Hj Hjk Hpool. destruct (pool_step p j gs m i g Hpool Hj Hg) as (Hi & x & Hx & Hstep). rewrite Hm in Hstep. apply inv_crashed. intros e Hs.
        destruct (gor_verdict p k i x e Hok ltac:(lia) ltac:(lia) Hx Hs) as [e' Hv]. rewrite Hv in Hstep. done. }
      inversion Hinv; subst; try (rewrite lookup_nil in Hg; discriminate Hg).
      + apply (G p k k); [done|lia|lia|done].
      + apply (G p k k); [done|lia|lia|done].
      + apply (G p k (S k)); [done|lia|lia|done].
      + apply (G p (length p) (length p)); [done|lia|lia|done].
      + apply (G p (length p) (length p)); [done|lia|lia|done].
      + apply (G p (length p) (length p)); [done|lia|lia|done].
      + apply (G p (length p) (length p)); [done|lia|lia|done].
      + match goal with H : _ = [] \/ _ |- _ => destruct H as [->|(p & k & Hok & Hk & [Hpool|[Hlt Hpool]])] end; [rewrite lookup_nil in Hg; discriminate Hg| |].
        * apply (G p k k); [done|lia|lia|done].
        * apply (G p k (S k)); [done|lia|lia|done].
  Qed.
  Lemma inv_reach c : rtc step (Verify_process lp pp id V W id2path) c -> inv c.
  Proof. intros H. assert (G : forall c0, inv c0 -> rtc step c0 c -> inv c) by (intros c0 H0 Hr; induction Hr; [done|]; apply IHHr, (inv_step x); done). apply (G _ inv_start H). Qed.
  Lemma inv_returned e gs m : inv (Run (MReturn e) gs m) -> ret_ok e.
  Proof.
    intros H. inversion H as [| | |p k gs' m' Hok Hk Hp E| | | | | | |e' gs' m' Hr|]; subst; [|done]. exfalso. replace (length p - k)%nat with (S (length p - S k)) in E by lia. discriminate E.
  Qed.
  (** Only a call that does not return can block the whole process. *)
  Lemma inv_progress c : inv c -> (exists e, returned c e) \/ c = Crashed \/ hangs c \/ exists c', step c c'.
  Proof.
    assert (S1 : forall (t : main VMem error) gs m, (main_hangs t = true \/ main_step t gs m <> Blocked) -> hangs (Run t gs m) \/ exists c', step (Run t gs m) c').
    { intros t gs m [H|H]; [left; by left|]. right. destruct (main_step t gs m) as [| |[[t' gs'] m']] eqn:E; [done|by eexists; apply step_main_crash|]. eexists. by apply step_main. }
    assert (S2 : forall A (x : res A) (k : A -> main VMem error) gs m, hangs (Run (MCall x k) gs m) \/ exists c', step (Run (MCall x k) gs m) c').
    { intros A x k gs m. apply S1. destruct x; cbn; auto. }
    intros H. inversion H; subst; try (right; right; apply S2).
    - right; right. apply S1. right. done.
    - right; right. replace (length p - k)%nat with (S (length p - S k)) by lia. cbn [seq par_loop]. apply S2.
    - right; right. apply S1. right. done.
    - destruct (decide (vm_wg m = 0%Z)) as [Hw|Hw].
      + right; right. apply S1. right. cbn. unfold v_wait. rewrite Hw. done.
      + destruct (pool_alive p gs m ltac:(done) Hw) as (i & g & Hg & [Hh|Hh]).
        * right; right; left. right. apply Exists_exists. exists g. split; [|done]. by eapply elem_of_list_lookup_2.
        * right; right; right. destruct (gor_step g m) as [| |[g' m']] eqn:E; [done|by eexists; eapply step_gor_crash|]. eexists. by eapply step_gor.
    - right; right. apply S1. right. done.
    - left. by exists e, gs, m.
    - right. by left.
  Qed.
  (** If the sequential run returns, no thread is ever in a call that does not return. *)
  Lemma inv_no_hang c e : inv c -> sequential = Ret e -> ~ hangs c.
  Proof.
    intros H Hs Hh.
    assert (G : forall p k j gs m, ok p k -> (j <= length p)%nat -> (j <= S k)%nat -> pool p j gs m -> ~ Exists (fun g => gor_hangs g = true) gs).
    { intros p k j gs m Hok Hj Hjk Hpool HE. apply Exists_exists in HE as (g & Hg & Hgh). apply elem_of_list_lookup in Hg as [i Hg].
      destruct (pool_step p j gs m i g Hpool Hj Hg) as (Hi & x & Hx & Hstep). destruct (gor_verdict p k i x e Hok ltac:(lia) ltac:(lia) Hx Hs) as [e' Hv].
      destruct g as [A [a| |] kk| |]; try done. cbn in Hstep. destruct Hstep as [|[_ Hstep]]; [done|]. rewrite Hv in Hstep. done. }
    inversion H; subst; cbn in Hh; (try contradiction); (destruct Hh as [Hh|Hh]; [|try (by apply Exists_nil in Hh)]).
    - unfold sequential, LiabilityProof_Verify in Hs. destruct (id2path id); [done..|]. done.
    - destruct (seq_header e Hs p) as (e' & He' & _); [done|]. rewrite He' in Hh. done.
    - done.
    - replace (length p - k)%nat with (S (length p - S k)) in Hh by lia. cbn in Hh. destruct (seq_next e p k Hs) as (x & e1 & e2 & Ha & _); [done|done|]. rewrite Ha in Hh. done.
    - destruct (G p k k gs m ltac:(done) ltac:(lia) ltac:(lia) ltac:(done) Hh).
    - done.
    - destruct (G p k k gs m ltac:(done) ltac:(lia) ltac:(lia) ltac:(done) Hh).
    - destruct (seq_next e p k Hs) as (x & e1 & e2 & _ & _ & Hd & _); [done|done|]. rewrite Hd in Hh. done.
    - destruct (G p k (S k) gs m ltac:(done) ltac:(lia) ltac:(lia) ltac:(done) Hh).
    - destruct (seq_arguments e p Hs) as (e1 & Ha & _); [done|]. rewrite Ha in Hh. done.
    - destruct (G p (length p) (length p) gs m ltac:(done) ltac:(lia) ltac:(lia) ltac:(done) Hh).
    - done.
    - destruct (G p (length p) (length p) gs m ltac:(done) ltac:(lia) ltac:(lia) ltac:(done) Hh).
    - done.
    - destruct (G p (length p) (length p) gs m ltac:(done) ltac:(lia) ltac:(lia) ltac:(done) Hh).
    - rewrite (seq_liability e p Hs) in Hh; [done..|]. intros i x Hi Hx. destruct (all_ranges p gs m ltac:(done) ltac:(done) ltac:(done) i Hi) as (x' & Hx' & Hv). rewrite Hx in Hx'. injection Hx' as <-. done.
    - destruct (G p (length p) (length p) gs m ltac:(done) ltac:(lia) ltac:(lia) ltac:(done) Hh).
    - done.
    - match goal with H : _ = [] \/ _ |- _ => destruct H as [->|(p & k & Hok & Hk & [Hpool|[Hlt Hpool]])] end; [by apply Exists_nil in Hh| |].
      + destruct (G p k k gs m ltac:(done) ltac:(lia) ltac:(lia) ltac:(done) Hh).
      + destruct (G p k (S k) gs m ltac:(done) ltac:(lia) ltac:(lia) ltac:(done) Hh).
  Qed.
  (** Without goroutines the program is the sequential model. *)
  Lemma inline_loop p is st w : (Z.of_nat (length is) <= w)%Z ->
    inline (par_loop pp lp p is) (MkVM w st) = let! r := verify_loop pp lp p is st in match r with inr e => Ret e | inl stored => inline (par_tail pp lp p) (MkVM (w - Z.of_nat (length is)) stored) end.
  Proof.
    revert st w. induction is as [|i is IH]; intros st w Hw.
    - cbn [par_loop verify_loop rbind length]. rewrite Z.sub_0_r. done.
    - cbn [length] in Hw. cbn [par_loop verify_loop inline]. destruct (verify_args lp p i) as [[rp V']| |]; [|done..]. cbn [rbind inline gor_inline verifyRangeProof].
      destruct (VerifyRange (po_RPPP pp) rp V') as [e| |]; [|done..]. cbn [rbind].
      assert (E : gor_inline (match e with Err _ => GAct (v_store e) (GAct v_done GEnd) | nil_error => GAct v_done GEnd end) (MkVM w st) = Ret (MkVM (w - 1) (match e with Err _ => e | nil_error => st end))).
      { destruct e; cbn [gor_inline v_store]; unfold v_done; cbn [vm_wg vm_err]; destruct (Z.leb_spec w 0); (lia || done). }
      rewrite E. cbn [rbind]. destruct (verify_digest lp p i) as [e2| |]; [|done..]. cbn [rbind]. destruct e2; [|done]. rewrite IH by lia. cbn [length]. replace (w - 1 - Z.of_nat (length is))%Z with (w - Z.of_nat (S (length is)))%Z by lia. done.
  Qed.
  Lemma inline_sequential : inline (par_Verify lp pp id V W id2path) (MkVM 0 nil_error) = sequential.
  Proof.
    unfold par_Verify, sequential, LiabilityProof_Verify. cbn [inline]. destruct (id2path id) as [p| |]; [|done..]. cbn [rbind inline]. destruct (verify_header lp p V W) as [e| |]; [|done..]. cbn [rbind].
    destruct e; [|done]. cbn [inline v_add vm_wg vm_err]. rewrite inline_loop by (rewrite seq_length; lia). destruct (verify_loop _ _ _ _ _) as [[st|e]| |]; [|done..]. cbn [rbind]. rewrite seq_length.
    unfold par_tail. cbn [inline]. destruct (verify_arguments pp lp p) as [e| |]; [|done..]. cbn [rbind]. destruct e; [|done]. cbn [inline]. unfold v_wait. cbn [vm_wg]. rewrite (proj2 (Z.eqb_eq _ _)) by lia.
    cbn [inline vm_err]. destruct st; [|done]. cbn [inline]. destruct (verify_liability pp lp p); done.
  Qed.
End Verify.

(** ** C58 *)
(** With ParallelismEnabled = false the code runs each goroutine where it is started; that is the model of Verify in Model_pol.v. *)
Theorem C58_sequential (C : Curve) (lp : LiabilityProof C) pp id V W id2path :
  inline (par_Verify lp pp id V W id2path) (MkVM 0 nil_error) = LiabilityProof_Verify lp pp id V W id2path.
Proof. apply inline_sequential. Qed.
(** Whatever any schedule returns, it is an acceptance iff the sequential run accepts; if the latter rejects, the errors are the
    same or the returned one is that of some range proof. *)
Theorem C58_same_verdict (C : Curve) (lp : LiabilityProof C) pp id V W id2path c e :
  rtc step (Verify_process lp pp id V W id2path) c -> returned c e ->
  (e = nil_error <-> LiabilityProof_Verify lp pp id V W id2path = Ret nil_error) /\
  forall e', LiabilityProof_Verify lp pp id V W id2path = Ret e' ->
    e = e' \/ exists i rp Vi, lp_RangeProofs lp !! i = Some rp /\ lp_V lp !! i = Some Vi /\ VerifyRange (po_RPPP pp) rp Vi = Ret e.
Proof.
  intros Hr (gs & m & ->). apply inv_reach, inv_returned in Hr as [H1 H2]. split; [done|]. intros e' He. destruct (H2 e' He) as [->|(p & i & [rp Vi] & _ & Hi & Hx & Hv)]; [by left|]. right. apply verify_args_inv in Hx as (Hx1 & Hx2 & _); [|done]. by exists i, rp, Vi.
Qed.
(** If the sequential run returns a verdict, no schedule crashes or gets stuck before it has returned. *)
Theorem C58_no_crash_no_deadlock (C : Curve) (lp : LiabilityProof C) pp id V W id2path c e :
  LiabilityProof_Verify lp pp id V W id2path = Ret e -> rtc step (Verify_process lp pp id V W id2path) c ->
  c <> Crashed /\ ((exists e', returned c e') \/ exists c', step c c').
Proof.
  intros Hs Hr. apply inv_reach in Hr. assert (Hc : c <> Crashed) by (intros ->; inversion Hr as [| | | | | | | | | | |Hno]; by apply (Hno e)). split; [done|].
  destruct (inv_progress _ _ _ _ _ _ c Hr) as [H|[H|[H|H]]]; [by left|done| |by right]. exfalso. by apply (inv_no_hang _ _ _ _ _ _ c e Hr Hs).
Qed.
(** In general: the process can always go on, has returned, has crashed, or is in a library call that does not return.  In
    particular nobody waits for the WaitGroup forever because of its counter. *)
Theorem C58_deadlock_free (C : Curve) (lp : LiabilityProof C) pp id V W id2path c :
  rtc step (Verify_process lp pp id V W id2path) c -> (exists e, returned c e) \/ c = Crashed \/ hangs c \/ exists c', step c c'.
Proof. intros Hr. apply inv_reach in Hr. by apply (inv_progress _ _ _ _ _ _ c Hr). Qed.
(** No schedule is infinite. *)
Theorem C58_terminates (C : Curve) (lp : LiabilityProof C) pp id V W id2path :
  ~ exists f : nat -> process VMem error, f 0%nat = Verify_process lp pp id V W id2path /\ forall n, step (f n) (f (S n)).
Proof.
  intros (f & _ & Hf). assert (G : forall c, forall n, f n = c -> False); [|by apply (G _ 0%nat Logic.eq_refl)].
  intros c. induction (step_wf c) as [c _ IH]. intros n Hn. apply (IH (f (S n))) with (n := S n); [|done]. rewrite <- Hn. apply Hf.
Qed.
(** So: accepted by one schedule iff by the sequential run iff every schedule goes on until it accepts. *)
Theorem C58_accept_one_iff_all (C : Curve) (lp : LiabilityProof C) pp id V W id2path :
  ((exists c, rtc step (Verify_process lp pp id V W id2path) c /\ returned c nil_error) <-> LiabilityProof_Verify lp pp id V W id2path = Ret nil_error) /\
  (LiabilityProof_Verify lp pp id V W id2path = Ret nil_error <->
   forall c, rtc step (Verify_process lp pp id V W id2path) c -> c <> Crashed /\ (returned c nil_error \/ exists c', step c c')).
Proof.
  assert (H3 : LiabilityProof_Verify lp pp id V W id2path = Ret nil_error ->
   forall c, rtc step (Verify_process lp pp id V W id2path) c -> c <> Crashed /\ (returned c nil_error \/ exists c', step c c')).
  { intros Hs c Hr. destruct (C58_no_crash_no_deadlock C lp pp id V W id2path c nil_error Hs Hr) as [Hc [[e He]|Hc']]; [|by auto]. split; [done|]. left.
    destruct (C58_same_verdict C lp pp id V W id2path c e Hr He) as [[_ H] _]. rewrite <- (H Hs). done. }
  assert (H1 : (exists c, rtc step (Verify_process lp pp id V W id2path) c /\ returned c nil_error) -> LiabilityProof_Verify lp pp id V W id2path = Ret nil_error).
  { intros (c & Hr & He). destruct (C58_same_verdict C lp pp id V W id2path c _ Hr He) as [[H _] _]. by apply H. }
  split; (split; [done|]).
  - intros Hs. rewrite <- C58_sequential in Hs. destruct (inline_schedule _ _ _ Hs []) as (c & Hc & Hret). by exists c.
  - intros Hall. apply H1. clear H1 H3. 
    assert (G : forall c, rtc step (Verify_process lp pp id V W id2path) c -> exists c', rtc step (Verify_process lp pp id V W id2path) c' /\ returned c' nil_error); [|by apply (G _ (rtc_refl _ _))].
    intros c. induction (step_wf c) as [c _ IH]. intros Hr. destruct (Hall c Hr) as [_ [Hret|[c' Hc']]]; [by exists c|]. apply (IH c' Hc'). by eapply rtc_r.
Qed.

(** ** Proving *)
Lemma mapM_pointwise {A B} (f : A -> res B) l ys : length ys = length l -> (forall k x, l !! k = Some x -> exists y, ys !! k = Some y /\ f x = Ret y) -> mapM f l = Ret ys.
Proof.
  revert ys. induction l as [|x l IH]; intros [|y ys] Hl H; try discriminate Hl; [done|]. cbn [mapM]. destruct (H 0%nat x Logic.eq_refl) as (y' & E & ->). injection E as <-. cbn [rbind].
  rewrite (IH ys); [done|by injection Hl|]. intros k z Hk. apply (H (S k) z Hk).
Qed.
Section Prove.
  Context {C : Curve}.
  Variable (pp : PolPP C) (id2path : string -> res path) (co : ProofCoins) (ls : LSet) (id : string).
  Let sequential : res (option (Z * LiabilityProof C)) := ProveLiability pp id2path co ls id.
  Notation result := (option (Z * (list (RangeProof C) -> LiabilityProof C) * list (option (RangeProof C)))).
  Let made (i : nat) (v : Vertex C) : res (RangeProof C) := prove_range_of pp co v i.

  (** *** The sequential run *)
  Lemma seq_prove_inv r : sequential = Ret (Some r) -> exists p z along, id2path id = Ret p /\ VGet (C:=C) id2path (ls_tree ls) id = Ret (Some (z, along)) /\ (1 <= length p)%nat /\
    exists rps opened l mk, (forall i, (i < length p)%nat -> exists v rp o, prove_reads p along i = Ret v /\ made i v = Ret rp /\ rps !! i = Some rp /\ prove_opening pp p v i = Ret o /\ opened !! i = Some o) /\
      length rps = length p /\ length opened = length p /\ prove_rest pp co p along opened = Ret (l, mk) /\ r = (l, mk rps).
  Proof.
    unfold sequential, ProveLiability. intros H. apply rbind_inv in H as (p & Hp & H). apply rbind_inv in H as (g & Hg & H). destruct g as [[z along]|]; [|discriminate H].
    destruct (Nat.leb_spec 1 (length p)) as [Hl|]; [|discriminate H]. apply rbind_inv in H as (vs & Hvs & H). apply rbind_inv in H as (rps & Hrps & H). apply rbind_inv in H as (opened & Hop & H).
    pose proof (mapM_length _ _ _ Hvs) as Lvs. pose proof (mapM_length _ _ _ Hrps) as Lrp. pose proof (mapM_length _ _ _ Hop) as Lop. rewrite seq_length in Lvs, Lrp, Lop.
    pose proof (proj1 (mapM_idx_take (fun i => idx along i) along 0 (length p) vs ltac:(intros; f_equal; lia)) Hvs) as [Hal Evs]. change (drop 0 along) with along in Evs. subst vs.
    assert (Ea : slice_to (length p) along = Ret (take (length p) along)) by (unfold slice_to; rewrite (proj2 (Nat.leb_le _ _)) by lia; done).
    apply rbind_inv in H as (lv & Hlv & H). apply rbind_inv in H as (pl & Hpl & H). apply rbind_inv in H as ([l π] & Hopen & H). destruct (Zr_Int l) as [li|] eqn:El; [|discriminate H].
    apply rbind_inv in H as (tPP & HtPP & H). apply rbind_inv in H as (ds & Hds & H). apply rbind_inv in H as (Σ & HΣ & H). apply rbind_inv in H as (π' & Hπ & H). apply rbind_inv in H as (sa & Hsa & H).
    apply rbind_inv in H as ([[eqs vEQ] wEQ] & Heqs & H). apply rbind_inv in H as (eq & Heq & H). injection H as <-.
    exists p, z, along. split; [done|]. split; [done|]. split; [done|]. eexists rps, opened, li, _. split; [|split; [exact Lrp|split; [exact Lop|split]]].
    - intros i Hi. destruct (mapM_lookup _ _ _ i i Hrps) as (rp & Hrp & Hf); [apply lookup_seq; lia|]. destruct (mapM_lookup _ _ _ i i Hop) as (o & Ho & Hf2); [apply lookup_seq; lia|].
      apply rbind_inv in Hf as (v & Hv & Hf). rewrite Hv in Hf2. cbn [rbind] in Hf2. exists v, rp, o. split; [|split; [exact Hf|split; [exact Hrp|split; [exact Hf2|exact Ho]]]].
      unfold prove_reads. rewrite Hv. cbn [rbind]. destruct (Nat.ltb_spec i (length p - 1)); [|done]. unfold idx. destruct (lookup_lt_is_Some_2 along (i + 1)) as [w Hw]; [lia|]. rewrite Hw. done.
    - unfold prove_rest. rewrite Ea. cbn [rbind]. rewrite Hlv. cbn [rbind]. rewrite Hpl. cbn [rbind]. rewrite Hopen. cbn [rbind]. rewrite El. rewrite HtPP. cbn [rbind]. rewrite Hds. cbn [rbind]. rewrite HΣ. cbn [rbind].
      rewrite Hπ. cbn [rbind]. rewrite Hsa. cbn [rbind]. rewrite Heqs. cbn [rbind]. rewrite Heq. cbn [rbind]. reflexivity.
    - reflexivity.
  Qed.
  Lemma seq_prove_intro p z along rps opened l mk : id2path id = Ret p -> VGet (C:=C) id2path (ls_tree ls) id = Ret (Some (z, along)) -> (1 <= length p)%nat ->
    (forall i, (i < length p)%nat -> exists v rp o, prove_reads p along i = Ret v /\ made i v = Ret rp /\ rps !! i = Some rp /\ prove_opening pp p v i = Ret o /\ opened !! i = Some o) ->
    length rps = length p -> length opened = length p -> prove_rest pp co p along opened = Ret (l, mk) -> sequential = Ret (Some (l, mk rps)).
  Proof.
    intros Hp Hg Hl Hit Lrp Lop Hrest. unfold sequential, ProveLiability. rewrite Hp. cbn [rbind]. rewrite Hg. cbn [rbind]. rewrite (proj2 (Nat.leb_le _ _)) by done.
    assert (Hrd : forall i v, prove_reads p along i = Ret v -> idx along i = Ret v).
    { intros i v. unfold prove_reads. destruct (idx along i) as [w| |]; [|done..]. cbn [rbind]. destruct (i <? length p - 1)%nat; [|congruence]. destruct (idx along (i + 1)); [cbn [rbind]; congruence|done..]. }
    assert (Hal : (length p <= length along)%nat). { destruct (Hit (length p - 1)%nat) as (v & _ & _ & Hv & _); [lia|]. apply Hrd in Hv. unfold idx in Hv. destruct (along !! (length p - 1)%nat) eqn:E; [|done]. apply lookup_lt_Some in E. lia. }
    rewrite (proj2 (mapM_idx_take (fun i => idx along i) along 0 (length p) (take (length p) along) ltac:(intros; f_equal; lia)) ltac:(split; [lia|done])). cbn [rbind].
    assert (Erp : mapM (fun i => let! v := idx along i in prove_range_of pp co v i) (seq 0 (length p)) = Ret rps).
    { apply mapM_pointwise; [rewrite seq_length; done|]. intros k i Hk. apply lookup_seq in Hk as [-> Hk]. destruct (Hit k) as (v & rp & o & Hv & Hm & Hr & _); [lia|]. exists rp. split; [done|]. change (0 + k)%nat with k. rewrite (Hrd _ _ Hv). exact Hm. }
    rewrite Erp. cbn [rbind].
    assert (Eop : mapM (fun i => let! v := idx along i in let! pi := idx p i in let! '(digest, π) := Open (po_PPPP pp) pi (vertex_digests pp v) in Ret (v_W v, digest, π)) (seq 0 (length p)) = Ret opened).
    { apply mapM_pointwise; [rewrite seq_length; done|]. intros k i Hk. apply lookup_seq in Hk as [-> Hk]. destruct (Hit k) as (v & rp & o & Hv & Hm & _ & Ho & Hr); [lia|]. exists o. split; [done|]. change (0 + k)%nat with k. rewrite (Hrd _ _ Hv). exact Ho. }
    rewrite Eop. cbn [rbind].
    assert (Ea : slice_to (length p) along = Ret (take (length p) along)) by (unfold slice_to; rewrite (proj2 (Nat.leb_le _ _)) by lia; done).
    unfold prove_rest in Hrest. rewrite Ea in Hrest. cbn [rbind] in Hrest.
    apply rbind_inv in Hrest as (lv & Hlv & H). apply rbind_inv in H as (pl & Hpl & H). apply rbind_inv in H as ([l' π] & Hopen & H). destruct (Zr_Int l') as [li|] eqn:El; [|discriminate H].
    apply rbind_inv in H as (tPP & HtPP & H). apply rbind_inv in H as (ds & Hds & H). apply rbind_inv in H as (Σ & HΣ & H). apply rbind_inv in H as (π' & Hπ & H). apply rbind_inv in H as (sa & Hsa & H).
    apply rbind_inv in H as ([[eqs vEQ] wEQ] & Heqs & H). apply rbind_inv in H as (eq & Heq & H). injection H as <- <-.
    rewrite Hlv. cbn [rbind]. rewrite Hpl. cbn [rbind]. rewrite Hopen. cbn [rbind]. rewrite El. rewrite HtPP. cbn [rbind]. rewrite Hds. cbn [rbind]. rewrite HΣ. cbn [rbind].
    rewrite Hπ. cbn [rbind]. rewrite Hsa. cbn [rbind]. rewrite Heqs. cbn [rbind]. rewrite Heq. cbn [rbind]. reflexivity.
  Qed.

  (** *** The goroutines *)
  Inductive pstate : Type := P_start | P_lock (rp : RangeProof C) | P_write (rp : RangeProof C) | P_unlock (rp : RangeProof C) | P_done (rp : RangeProof C) | P_end (rp : RangeProof C).
  Definition p_of (i : nat) (x : Vertex C * pstate) : goroutine (PMem C) :=
    match snd x with
    | P_start => createRangeProof pp co i (fst x)
    | P_lock rp => GAct p_lock (GAct (p_write i rp) (GAct p_unlock (GAct p_done GEnd)))
    | P_write rp => GAct (p_write i rp) (GAct p_unlock (GAct p_done GEnd))
    | P_unlock rp => GAct p_unlock (GAct p_done GEnd)
    | P_done rp => GAct p_done GEnd
    | P_end rp => GEnd
    end.
  (** The proof made so far; what is in its slot *)
  Definition p_made (s : pstate) : option (RangeProof C) :=
    match s with P_start => None | P_lock rp | P_write rp | P_unlock rp | P_done rp | P_end rp => Some rp end.
  Definition p_slot (s : pstate) : option (RangeProof C) :=
    match s with P_start | P_lock _ | P_write _ => None | P_unlock rp | P_done rp | P_end rp => Some rp end.
  Definition p_ended (x : Vertex C * pstate) : nat := match snd x with P_end _ => 1%nat | _ => 0%nat end.
  Definition p_holds (x : Vertex C * pstate) : nat := match snd x with P_write _ | P_unlock _ => 1%nat | _ => 0%nat end.
  Lemma p_ended_le x : (p_ended x <= 1)%nat. Proof. destruct x as [? []]; cbn; lia. Qed.
  Definition ppool (p : path) (along : list (Vertex C)) (k : nat) (gs : list (goroutine (PMem C))) (m : PMem C) : Prop :=
    exists xs, length xs = k /\ gs = imap p_of xs /\ length (pm_slots m) = length p /\
      (forall i x, xs !! i = Some x -> prove_reads p along i = Ret (fst x) /\ pm_slots m !! i = Some (p_slot (snd x)) /\
        (forall rp, p_made (snd x) = Some rp -> made i (fst x) = Ret rp)) /\
      pm_wg m = (Z.of_nat (length p) - Z.of_nat (cnt p_ended xs))%Z /\
      cnt p_holds xs = (if pm_lock m then 1 else 0)%nat /\
      (forall i, (k <= i)%nat -> pm_slots m !! i = None \/ pm_slots m !! i = Some None).
  Lemma ppool_go p along k gs m v : (k < length p)%nat -> ppool p along k gs m -> prove_reads p along k = Ret v -> ppool p along (S k) (gs ++ [createRangeProof pp co k v]) m.
  Proof.
    intros Hk (xs & L & -> & Ls & H1 & H2 & H3 & H4) Hv. exists (xs ++ [(v, P_start)]). rewrite app_length, L. split; [cbn; lia|]. split; [rewrite imap_app; cbn; rewrite Nat.add_0_r, L; done|]. split; [done|].
    split; [|split; [|split]].
    - intros i x Hx. apply snoc_lookup in Hx as [[_ Hx]|[-> <-]]; [by apply H1|]. rewrite L. cbn. split; [done|]. split; [|done]. destruct (H4 k ltac:(lia)) as [E|E]; [|done]. apply lookup_ge_None in E. lia.
    - rewrite cnt_app. cbn. rewrite H2. lia.
    - rewrite cnt_app. cbn. rewrite H3. lia.
    - intros i Hi. apply H4. lia.
  Qed.
  Lemma ppool_step p along k gs m i g : ppool p along k gs m -> (k <= length p)%nat -> gs !! i = Some g ->
    (i < k)%nat /\ exists v, prove_reads p along i = Ret v /\
    match gor_step g m with
    | Next (g', m') => ppool p along k (<[i := g']> gs) m' /\ (pm_wg m = 0%Z -> m' = m)
    | Crash => made i v = Panic
    | Blocked => g = GEnd \/ (gor_hangs g = true /\ made i v = Hang) \/ pm_lock m = true
    end.
  Proof.
    intros (xs & L & -> & Ls & H1 & H2 & H3 & H4) Hk Hg. rewrite list_lookup_imap in Hg. destruct (xs !! i) as [x|] eqn:Hx; [|done]. cbn in Hg. injection Hg as <-. pose proof (lookup_lt_Some _ _ _ Hx) as Hi. split; [lia|].
    destruct x as [v s]. destruct (H1 i _ Hx) as (Hv & Hsl & Hm). cbn [fst snd] in Hv, Hsl, Hm. exists v. split; [done|].
    pose proof (cnt_le p_ended xs p_ended_le) as Hcl.
    assert (Upd : forall s' m', (forall rp, p_made s' = Some rp -> made i v = Ret rp) -> pm_slots m' = <[i := p_slot s']> (pm_slots m) ->
      pm_wg m' = (pm_wg m + Z.of_nat (p_ended (v, s)) - Z.of_nat (p_ended (v, s')))%Z -> ((if pm_lock m' then 1 else 0) + p_holds (v, s) = (if pm_lock m then 1 else 0) + p_holds (v, s'))%nat ->
      ppool p along k (<[i := p_of i (v, s')]> (imap p_of xs)) m').
    { intros s' m' Hmd Hs Hw Hlk. exists (<[i := (v, s')]> xs). rewrite insert_length. split; [done|]. split.
      { apply list_eq. intros j. rewrite list_lookup_imap. destruct (decide (j = i)) as [->|Hne].
        - rewrite list_lookup_insert by (rewrite imap_length; lia). rewrite list_lookup_insert by lia. done.
        - rewrite !list_lookup_insert_ne by done. rewrite list_lookup_imap. done. }
      split; [rewrite Hs, insert_length; done|]. split; [|split; [|split]].
      - intros j y Hy. destruct (decide (j = i)) as [->|Hne].
        + rewrite list_lookup_insert in Hy by lia. injection Hy as <-. cbn. split; [done|]. split; [|done]. rewrite Hs, list_lookup_insert by lia. done.
        + rewrite list_lookup_insert_ne in Hy by done. rewrite Hs, list_lookup_insert_ne by done. by apply H1.
      - pose proof (cnt_insert p_ended xs i _ (v, s') Hx) as Hc. lia.
      - pose proof (cnt_insert p_holds xs i _ (v, s') Hx) as Hc. lia.
      - intros j Hj. rewrite Hs, list_lookup_insert_ne by lia. by apply H4. }
    assert (Same : forall s', p_slot s' = p_slot s -> <[i := p_slot s']> (pm_slots m) = pm_slots m) by (intros s' ->; apply list_insert_id; done).
    assert (Busy : p_ended (v, s) = 0%nat -> (0 < pm_wg m)%Z).
    { intros E. assert (Hc : (cnt p_ended xs < length xs)%nat); [|lia]. destruct (decide (cnt p_ended xs = length xs)) as [Hf|]; [|lia]. pose proof (cnt_full p_ended xs p_ended_le Hf i _ Hx). lia. }
    destruct s as [|rp|rp|rp|rp|rp]; cbn [p_of fst snd].
    - unfold createRangeProof. cbn [gor_step gor_hangs]. change (prove_range_of pp co v i) with (made i v). destruct (made i v) as [rp| |] eqn:Ev; [|done|by right; left].
      split; [apply (Upd (P_lock rp) m); cbn; [intros ? [= <-]; done|symmetry; by apply (Same P_start)|lia|lia]|done].
    - cbn [gor_step]. unfold p_lock. destruct (pm_lock m) eqn:Elk; [by right; right|]. split; [|intros Hw; specialize (Busy Logic.eq_refl); lia].
      apply (Upd (P_write rp)); cbn; [intros ? [= <-]; by apply Hm|symmetry; by apply (Same P_start)|lia|lia].
    - cbn [gor_step]. unfold p_write. rewrite (proj2 (Nat.ltb_lt _ _)) by lia. split; [|intros Hw; specialize (Busy Logic.eq_refl); lia].
      apply (Upd (P_unlock rp)); cbn; [intros ? [= <-]; by apply Hm|done|lia|lia].
    - cbn [gor_step]. unfold p_unlock. destruct (pm_lock m) eqn:Elk.
      + split; [|intros Hw; specialize (Busy Logic.eq_refl); lia]. apply (Upd (P_done rp)); cbn; [intros ? [= <-]; by apply Hm|symmetry; by apply (Same (P_done rp))|lia|lia].
      + exfalso. pose proof (cnt_insert p_holds xs i _ (v, P_start) Hx) as Hc. cbn in Hc. lia.
    - cbn [gor_step]. unfold p_done. specialize (Busy Logic.eq_refl). destruct (Z.leb_spec (pm_wg m) 0); [lia|]. split; [|lia].
      apply (Upd (P_end rp)); cbn; [intros ? [= <-]; by apply Hm|symmetry; by apply (Same (P_end rp))|lia|lia].
    - cbn. by left.
  Qed.
  (** Once the counter is zero, every slot holds the proof of its vertex. *)
  Lemma ppool_finished p along gs m : ppool p along (length p) gs m -> pm_wg m = 0%Z ->
    exists rps, pm_slots m = Some <$> rps /\ length rps = length p /\
    forall i, (i < length p)%nat -> exists v rp, prove_reads p along i = Ret v /\ made i v = Ret rp /\ rps !! i = Some rp.
  Proof.
    intros (xs & L & -> & Ls & H1 & H2 & H3 & H4) Hw. assert (He : forall i x, xs !! i = Some x -> p_ended x = 1%nat) by (apply cnt_full; [apply p_ended_le|lia]).
    exists (omap (fun x => p_made (snd x)) xs).
    assert (Hall : forall i x, xs !! i = Some x -> exists rp, p_made (snd x) = Some rp /\ p_slot (snd x) = Some rp).
    { intros i [v s] Hx. specialize (He i _ Hx). destruct s; cbn in He; try lia. cbn. by eexists. }
    assert (Lk : forall ys : list (Vertex C * pstate), (forall i x, ys !! i = Some x -> exists rp, p_made (snd x) = Some rp /\ p_slot (snd x) = Some rp) ->
      length (omap (fun x => p_made (snd x)) ys) = length ys /\ forall i, omap (fun x => p_made (snd x)) ys !! i = (ys !! i) ≫= (fun x => p_made (snd x))).
    { clear. induction ys as [|y ys IH]; intros H; [done|]. destruct (H 0%nat y Logic.eq_refl) as (rp & Hm & _). destruct IH as [IL IK]; [intros i x Hx; apply (H (S i) x Hx)|]. cbn [omap list_omap]. rewrite Hm. split; [cbn [length]; by rewrite IL|].
      intros [|i]; [cbn; done|]. cbn [lookup list_lookup]. apply IK. }
    destruct (Lk xs Hall) as [Lm Km]. split; [|split].
    - apply list_eq. intros i. rewrite list_lookup_fmap, Km. destruct (xs !! i) as [x|] eqn:Hx.
      + destruct (Hall i x Hx) as (rp & Hm & Hs). destruct (H1 i x Hx) as (_ & Hsl & _). rewrite Hsl. cbn. rewrite Hm. cbn. by rewrite Hs.
      + cbn. apply lookup_ge_None. apply lookup_ge_None in Hx. lia.
    - lia.
    - intros i Hi. destruct (lookup_lt_is_Some_2 xs i) as [x Hx]; [lia|]. destruct (Hall i x Hx) as (rp & Hm & Hs). destruct (H1 i x Hx) as (Hr & _ & Hmd). exists (fst x), rp. split; [done|]. split; [by apply Hmd|]. rewrite Km, Hx. cbn. done.
  Qed.
  (** While the counter is not zero, some goroutine can go on: the one that holds the lock, or any other if nobody does. *)
  Lemma ppool_alive p along gs m : ppool p along (length p) gs m -> pm_wg m <> 0%Z -> exists i g, gs !! i = Some g /\ (gor_hangs g = true \/ gor_step g m <> Blocked).
  Proof.
    intros Hpool Hw. pose proof Hpool as (xs & L & -> & Ls & H1 & H2 & H3 & H4). pose proof (cnt_le p_ended xs p_ended_le) as Hcl.
    assert (Hx : exists i x, xs !! i = Some x /\ p_ended x = 0%nat /\ (pm_lock m = true -> p_holds x = 1%nat)).
    { destruct (pm_lock m) eqn:El.
      - assert (Hy : exists i x, xs !! i = Some x /\ p_holds x = 1%nat).
        { clear -H3. induction xs as [|y ys IH]; [done|]. destruct (p_holds y) as [|[|h]] eqn:E.
          - cbn [cnt] in H3. destruct IH as (i & x & Hx & Hh); [lia|]. by exists (S i), x.
          - by exists 0%nat, y.
          - destruct y as [? []]; cbn in E; lia. }
        destruct Hy as (i & x & Hx & Hh). exists i, x. split; [done|]. split; [|done]. destruct x as [? []]; cbn in Hh |- *; lia.
      - destruct (cnt_not_full p_ended xs p_ended_le ltac:(lia)) as (i & x & Hx & He). by exists i, x. }
    destruct Hx as (i & x & Hx & He & Hlk). assert (Hg : imap p_of xs !! i = Some (p_of i x)) by (rewrite list_lookup_imap, Hx; done).
    exists i, (p_of i x). split; [done|]. destruct x as [v s]. destruct s as [|rp|rp|rp|rp|rp]; cbn [p_of fst snd]; cbn in He, Hlk; try lia.
    - unfold createRangeProof. cbn [gor_hangs gor_step]. destruct (prove_range_of pp co v i); auto; right; discriminate.
    - right. cbn [gor_step]. unfold p_lock. destruct (pm_lock m); [specialize (Hlk Logic.eq_refl); lia|]. discriminate.
    - right. cbn [gor_step]. unfold p_write. destruct (_ <? _)%nat; discriminate.
    - right. cbn [gor_step]. unfold p_unlock. destruct (pm_lock m); discriminate.
    - right. cbn [gor_step]. unfold p_done. destruct (_ <=? _)%Z; discriminate.
  Qed.
  Lemma ppool_start p along : ppool p along 0 [] (MkPM (0 + Z.of_nat (length p)) false (replicate (length p) None)).
  Proof.
    exists []. split_and!; try done; [apply replicate_length|cbn; lia|]. intros i _. cbn. destruct (replicate (length p) None !! i) as [o|] eqn:E; [|by left]. right. apply lookup_replicate in E as [-> _]. done.
  Qed.

  (** *** The main thread *)
  Definition pok (p : path) (along : list (Vertex C)) (k : nat) (opened : list (option (G1 C) * Zr * G1 C)) : Prop :=
    id2path id = Ret p /\ (exists z, VGet (C:=C) id2path (ls_tree ls) id = Ret (Some (z, along))) /\ (1 <= length p)%nat /\ length opened = k /\
    forall i, (i < k)%nat -> exists v o, prove_reads p along i = Ret v /\ prove_opening pp p v i = Ret o /\ opened !! i = Some o.
  Definition pret_ok (r : result) : Prop :=
    match r with
    | None => sequential = Ret None
    | Some (l, mk, slots) => exists rps, slots = Some <$> rps /\ sequential = Ret (Some (l, mk rps)) /\ lp_RangeProofs (mk rps) = rps /\
        exists p z along, id2path id = Ret p /\ VGet (C:=C) id2path (ls_tree ls) id = Ret (Some (z, along)) /\ length rps = length p /\
        forall i, (i < length p)%nat -> exists v rp, along !! i = Some v /\ made i v = Ret rp /\ rps !! i = Some rp
    end.
  Definition after_pgo (p : path) (along : list (Vertex C)) (k : nat) (opened : list (option (G1 C) * Zr * G1 C)) (v : Vertex C) : main (PMem C) result :=
    MCall (prove_opening pp p v k) (fun o => prove_loop pp co p along (opened ++ [o]) (seq (S k) (length p - S k))).
  Definition pcheck (p : path) (along : list (Vertex C)) : main (PMem C) result :=
    MCall (if (1 <=? length p)%nat then Ret tt else Panic) (fun _ => prove_loop pp co p along [] (seq 0 (length p))).
  Inductive pinv : process (PMem C) result -> Prop :=
  | pinv_start : pinv (Prove_process pp id2path co ls id)
  | pinv_get p : id2path id = Ret p -> pinv (Run (MCall (VGet (C:=C) id2path (ls_tree ls) id) (fun g => match g with
      | None => MReturn None
      | Some (_, along) => MAct (p_start (length p)) (pcheck p along) end)) [] (MkPM 0 false []))
  | pinv_act p z along : id2path id = Ret p -> VGet (C:=C) id2path (ls_tree ls) id = Ret (Some (z, along)) -> pinv (Run (MAct (p_start (length p)) (pcheck p along)) [] (MkPM 0 false []))
  | pinv_check p z along : id2path id = Ret p -> VGet (C:=C) id2path (ls_tree ls) id = Ret (Some (z, along)) ->
      pinv (Run (pcheck p along) [] (MkPM (0 + Z.of_nat (length p)) false (replicate (length p) None)))
  | pinv_loop p along k opened gs m : pok p along k opened -> (k < length p)%nat -> ppool p along k gs m -> pinv (Run (prove_loop pp co p along opened (seq k (length p - k))) gs m)
  | pinv_go p along k opened gs m v : pok p along k opened -> (k < length p)%nat -> ppool p along k gs m -> prove_reads p along k = Ret v ->
      pinv (Run (MGo (createRangeProof pp co k v) (after_pgo p along k opened v)) gs m)
  | pinv_opening p along k opened gs m v : pok p along k opened -> (k < length p)%nat -> ppool p along (S k) gs m -> prove_reads p along k = Ret v ->
      pinv (Run (after_pgo p along k opened v) gs m)
  | pinv_tail p along opened gs m : pok p along (length p) opened -> ppool p along (length p) gs m -> pinv (Run (prove_tail pp co p along opened) gs m)
  | pinv_wait p along opened gs m l mk : pok p along (length p) opened -> ppool p along (length p) gs m -> prove_rest pp co p along opened = Ret (l, mk) ->
      pinv (Run (MAct p_wait (MRead pm_slots (fun slots => MReturn (Some (l, mk, slots))))) gs m)
  | pinv_read p along opened gs m l mk : pok p along (length p) opened -> ppool p along (length p) gs m -> prove_rest pp co p along opened = Ret (l, mk) -> pm_wg m = 0%Z ->
      pinv (Run (MRead pm_slots (fun slots => MReturn (Some (l, mk, slots)))) gs m)
  | pinv_return r gs m : pret_ok r -> (gs = [] \/ exists p along opened, pok p along (length p) opened /\ ppool p along (length p) gs m /\ pm_wg m = 0%Z) -> pinv (Run (MReturn r) gs m)
  | pinv_crashed : (forall r, sequential <> Ret r) -> pinv Crashed.

  Lemma pinv_next p along k opened gs m : pok p along k opened -> (k <= length p)%nat -> ppool p along k gs m -> pinv (Run (prove_loop pp co p along opened (seq k (length p - k))) gs m).
  Proof.
    intros Hok Hk Hpool. destruct (decide (k = length p)) as [->|Hne]; [rewrite Nat.sub_diag; by apply pinv_tail|]. apply pinv_loop; [done|lia|done].
  Qed.
  (** If the sequential run returns, so does everything the threads call. *)
  Lemma seq_prove_at r p along k opened : sequential = Ret r -> pok p along k opened -> forall i, (i < length p)%nat -> exists v rp o, prove_reads p along i = Ret v /\ made i v = Ret rp /\ prove_opening pp p v i = Ret o.
  Proof.
    intros Hs (H1 & (z & H2) & H3 & H4 & H5) i Hi. destruct r as [r|].
    - destruct (seq_prove_inv r Hs) as (p' & z' & along' & Hp & Hg & _ & rps & op & l & mk & Hit & _). rewrite H1 in Hp. injection Hp as <-. rewrite H2 in Hg. injection Hg as <- <-. destruct (Hit i Hi) as (v & rp & o & ?). exists v, rp, o. tauto.
    - exfalso. unfold sequential, ProveLiability in Hs. rewrite H1 in Hs. cbn [rbind] in Hs. rewrite H2 in Hs. cbn [rbind] in Hs. destruct (1 <=? length p)%nat; [|done].
      repeat (first [apply rbind_inv in Hs as (? & _ & Hs) | match type of Hs with context [match ?x with Some _ => _ | None => _ end] => destruct x end | match type of Hs with (let '(_, _) := ?x in _) = _ => destruct x end]; try discriminate Hs).
  Qed.
  Lemma seq_prove_tail r p along opened : sequential = Ret r -> pok p along (length p) opened -> exists l mk, prove_rest pp co p along opened = Ret (l, mk).
  Proof.
    intros Hs Hok. pose proof Hok as (H1 & (z & H2) & H3 & H4 & H5). destruct r as [r|].
    - destruct (seq_prove_inv r Hs) as (p' & z' & along' & Hp & Hg & _ & rps & op & l & mk & Hit & _ & Lop & Hrest & _). rewrite H1 in Hp. injection Hp as <-. rewrite H2 in Hg. injection Hg as <- <-.
      assert (opened = op) as ->; [|by exists l, mk]. apply list_eq. intros i. destruct (decide (i < length p)%nat) as [Hi|Hi].
      + destruct (Hit i Hi) as (v & rp & o & Hv & _ & _ & Ho & Hoi). destruct (H5 i Hi) as (v' & o' & Hv' & Ho' & Hoi'). rewrite Hv in Hv'. injection Hv' as <-. congruence.
      + rewrite !lookup_ge_None_2 by lia. done.
    - destruct (seq_prove_at None p along (length p) opened Hs Hok 0) as (v & _); [lia|]. exfalso. unfold sequential, ProveLiability in Hs. rewrite H1 in Hs. cbn [rbind] in Hs. rewrite H2 in Hs. cbn [rbind] in Hs. destruct (1 <=? length p)%nat; [|done].
      repeat (first [apply rbind_inv in Hs as (? & _ & Hs) | match type of Hs with context [match ?x with Some _ => _ | None => _ end] => destruct x end | match type of Hs with (let '(_, _) := ?x in _) = _ => destruct x end]; try discriminate Hs).
  Qed.
  Lemma reads_lookup p (along : list (Vertex C)) i v : prove_reads p along i = Ret v -> along !! i = Some v.
  Proof. unfold prove_reads, idx. destruct (along !! i) as [w|]; [|done]. cbn [rbind]. destruct (i <? length p - 1)%nat; [|congruence]. destruct (along !! (i + 1)%nat); cbn [rbind]; congruence. Qed.
  Lemma rest_ranges p along opened l mk : prove_rest pp co p along opened = Ret (l, mk) -> forall rps, lp_RangeProofs (mk rps) = rps.
  Proof.
    unfold prove_rest. intros H. apply rbind_inv in H as (vs & _ & H). apply rbind_inv in H as (lv & Hlv & H). apply rbind_inv in H as (pl & Hpl & H). apply rbind_inv in H as ([l' π] & Hopen & H). destruct (Zr_Int l') as [li|] eqn:El; [|discriminate H].
    apply rbind_inv in H as (tPP & HtPP & H). apply rbind_inv in H as (ds & Hds & H). apply rbind_inv in H as (Σ & HΣ & H). apply rbind_inv in H as (π' & Hπ & H). apply rbind_inv in H as (sa & Hsa & H).
    apply rbind_inv in H as ([[eqs vEQ] wEQ] & Heqs & H). apply rbind_inv in H as (eq & Heq & H). injection H as <- <-. done.
  Qed.
  Lemma finished_ok p along opened gs m l mk : pok p along (length p) opened -> ppool p along (length p) gs m -> prove_rest pp co p along opened = Ret (l, mk) -> pm_wg m = 0%Z ->
    pret_ok (Some (l, mk, pm_slots m)).
  Proof.
    intros Hok Hpool Hrest Hw. destruct (ppool_finished p along gs m Hpool Hw) as (rps & Hsl & Lr & Hit). pose proof Hok as (H1 & (z & H2) & H3 & H4 & H5). exists rps. split; [done|]. split.
    - apply (seq_prove_intro p z along rps opened l mk); try done. intros i Hi. destruct (Hit i Hi) as (v & rp & Hv & Hm & Hr). destruct (H5 i Hi) as (v' & o & Hv' & Ho & Hoi). rewrite Hv in Hv'. injection Hv' as <-. by exists v, rp, o.
    - split; [by eapply rest_ranges|]. exists p, z, along. split_and!; try done. intros i Hi. destruct (Hit i Hi) as (v & rp & Hv & Hm & Hr). exists v, rp. split; [by eapply reads_lookup|done].
  Qed.
  Lemma pinv_step c c' : pinv c -> step c c' -> pinv c'.
  Proof.
    intros Hinv Hs. destruct Hs as [t gs m t' gs' m' Hm|t gs m Hm|t gs m i g g' m' Hg Hm|t gs m i g Hg Hm].
    - (* main thread *)
      inversion Hinv; subst; cbn -[Nat.leb] in Hm.
      + destruct (id2path id) as [p| |] eqn:Ep; [|done..]. injection Hm as <- <- <-. by apply pinv_get.
      + destruct (VGet id2path (ls_tree ls) id) as [[[z along]|]| |] eqn:Eg; [| |done..]; injection Hm as <- <- <-; [by eapply pinv_act|].
        apply pinv_return; [|by left]. cbn. unfold sequential, ProveLiability. match goal with H : id2path id = _ |- _ => rewrite H end. cbn [rbind]. rewrite Eg. done.
      + injection Hm as <- <- <-. by eapply pinv_check.
      + destruct (Nat.leb_spec 1 (length p)); [|done]. injection Hm as <- <- <-. replace (length p) with (length p - 0)%nat at 1 by lia. apply pinv_next; [|lia|apply ppool_start]. split_and!; try done; [by eexists|]. intros i Hi. lia.
      + replace (length p - k)%nat with (S (length p - S k)) in Hm by lia. cbn in Hm. destruct (prove_reads p along k) as [v| |] eqn:Ea; [|done..]. injection Hm as <- <- <-. by apply pinv_go.
      + injection Hm as <- <- <-. apply pinv_opening; [done|done| |done]. by apply ppool_go.
      + destruct (prove_opening pp p v k) as [o| |] eqn:Eo; [|done..]. injection Hm as <- <- <-. apply pinv_next; [|lia|done].
        match goal with H : pok _ _ _ _ |- _ => destruct H as (O1 & O2 & O3 & O4 & O5) end. split; [done|]. split; [done|]. split; [done|]. split; [rewrite app_length; cbn; lia|].
        intros i Hi. destruct (decide (i = k)) as [->|].
        * exists v, o. split; [done|]. split; [done|]. rewrite <- O4. apply list_lookup_middle. done.
        * destruct (O5 i) as (v' & o' & ? & ? & ?); [lia|]. exists v', o'. split; [done|]. split; [done|]. rewrite lookup_app_l by lia. done.
      + destruct (prove_rest pp co p along opened) as [[l mk]| |] eqn:Er; [|done..]. injection Hm as <- <- <-. by eapply pinv_wait.
      + destruct (p_wait m) as [| |m1] eqn:Ew; [done..|]. unfold p_wait in Ew. destruct (Z.eqb_spec (pm_wg m) 0); [|done]. injection Ew as <-. injection Hm as <- <- <-. by eapply pinv_read.
      + injection Hm as <- <- <-. apply pinv_return; [by eapply finished_ok|]. right. exists p, along, opened. done.
      + done.
    - (* main thread panics *)
      apply pinv_crashed. intros r Hs. inversion Hinv; subst; cbn -[Nat.leb] in Hm.
      + unfold sequential, ProveLiability in Hs. destruct (id2path id); [done|done|done].
      + unfold sequential, ProveLiability in Hs. match goal with H : id2path id = _ |- _ => rewrite H in Hs end. cbn [rbind] in Hs. destruct (VGet id2path (ls_tree ls) id); [done|done|done].
      + done.
      + unfold sequential, ProveLiability in Hs. match goal with H : id2path id = _ |- _ => rewrite H in Hs end. cbn [rbind] in Hs. match goal with H : VGet _ _ _ = _ |- _ => rewrite H in Hs end. cbn [rbind] in Hs.
        destruct (1 <=? length p)%nat; [done|done].
      + replace (length p - k)%nat with (S (length p - S k)) in Hm by lia. cbn in Hm. destruct (seq_prove_at r p along k opened Hs ltac:(done) k) as (v & rp & o & Ha & _); [done|]. rewrite Ha in Hm. done.
      + done.
      + destruct (seq_prove_at r p along k opened Hs ltac:(done) k) as (v' & rp & o & Ha & _ & Ho); [done|]. assert (v' = v) as -> by congruence. rewrite Ho in Hm. done.
      + destruct (seq_prove_tail r p along opened Hs) as (l & mk & Er); [done|]. rewrite Er in Hm. done.
      + unfold p_wait in Hm. destruct (pm_wg m =? 0)%Z; done.
      + done.
      + done.
    - (* goroutine *)
      assert (G : forall p along k, (k <= length p)%nat -> ppool p along k gs m ->
        (ppool p along k (<[i := g']> gs) m' -> (pm_wg m = 0%Z -> m' = m) -> pinv (Run t (<[i := g']> gs) m')) -> pinv (Run t (<[i := g']> gs) m')).
      { intros p along k Hk Hpool Hn. destruct (ppool_step p along k gs m i g Hpool Hk Hg) as (Hi & v & Hv & Hstep). rewrite Hm in Hstep. destruct Hstep as [S1 S2]. by apply Hn. }
      inversion Hinv; subst; try (rewrite lookup_nil in Hg; discriminate Hg).
      + apply (G p along k); [lia|done|]. intros ? _. by apply pinv_loop.
      + apply (G p along k); [lia|done|]. intros ? _. by apply pinv_go.
      + apply (G p along (S k)); [lia|done|]. intros ? _. by apply pinv_opening.
      + apply (G p along (length p)); [lia|done|]. intros ? _. by apply pinv_tail.
      + apply (G p along (length p)); [lia|done|]. intros ? _. by eapply pinv_wait.
      + apply (G p along (length p)); [lia|done|]. intros ? E. rewrite E in * by done. by eapply pinv_read.
      + match goal with H : _ = [] \/ _ |- _ => destruct H as [->|(p & along & opened & Hok & Hpool & Hw)] end; [rewrite lookup_nil in Hg; discriminate Hg|].
        apply (G p along (length p)); [lia|done|]. intros ? E. rewrite E in * by done. apply pinv_return; [done|]. right. by exists p, along, opened.
    - (* goroutine panics *)
      assert (G : forall p along j k opened, pok p along j opened -> (k <= length p)%nat -> ppool p along k gs m -> pinv Crashed).
      { intros p along j k opened Hok Hk Hpool. destruct (ppool_step p along k gs m i g Hpool Hk Hg) as (Hi & v & Hv & Hstep). rewrite Hm in Hstep. apply pinv_crashed. intros r Hs.
        destruct (seq_prove_at r p along j opened Hs Hok i) as (v' & rp & o & Hv' & Hmd & _); [lia|]. rewrite Hv in Hv'. injection Hv' as <-. rewrite Hmd in Hstep. done. }
      inversion Hinv; subst; try (rewrite lookup_nil in Hg; discriminate Hg).
      + apply (G p along k k opened); [done|lia|done].
      + apply (G p along k k opened); [done|lia|done].
      + apply (G p along k (S k) opened); [done|lia|done].
      + apply (G p along (length p) (length p) opened); [done|lia|done].
      + apply (G p along (length p) (length p) opened); [done|lia|done].
      + apply (G p along (length p) (length p) opened); [done|lia|done].
      + match goal with H : _ = [] \/ _ |- _ => destruct H as [->|(p & along & opened & Hok & Hpool & Hw)] end; [rewrite lookup_nil in Hg; discriminate Hg|].
        apply (G p along (length p) (length p) opened); [done|lia|done].
  Qed.
  Lemma pinv_reach c : rtc step (Prove_process pp id2path co ls id) c -> pinv c.
  Proof. intros H. assert (G : forall c0, pinv c0 -> rtc step c0 c -> pinv c) by (intros c0 H0 Hr; induction Hr; [done|]; apply IHHr, (pinv_step x); done). apply (G _ pinv_start H). Qed.
  Lemma pinv_returned r gs m : pinv (Run (MReturn r) gs m) -> pret_ok r.
  Proof.
    intros H. inversion H as [| | | |p along k opened gs' m' Hok Hk Hp E| | | | | |r' gs' m' Hr|]; subst; [|done]. exfalso. replace (length p - k)%nat with (S (length p - S k)) in E by lia. discriminate E.
  Qed.
  Lemma pinv_progress c : pinv c -> (exists r, returned c r) \/ c = Crashed \/ hangs c \/ exists c', step c c'.
  Proof.
    assert (S1 : forall (t : main (PMem C) result) gs m, (main_hangs t = true \/ main_step t gs m <> Blocked) -> hangs (Run t gs m) \/ exists c', step (Run t gs m) c').
    { intros t gs m [H|H]; [left; by left|]. right. destruct (main_step t gs m) as [| |[[t' gs'] m']] eqn:E; [done|by eexists; apply step_main_crash|]. eexists. by apply step_main. }
    assert (S2 : forall A (x : res A) (k : A -> main (PMem C) result) gs m, hangs (Run (MCall x k) gs m) \/ exists c', step (Run (MCall x k) gs m) c').
    { intros A x k gs m. apply S1. destruct x; cbn; auto. }
    intros H. inversion H; subst; try (right; right; apply S2).
    - right; right. apply S1. right. done.
    - right; right. replace (length p - k)%nat with (S (length p - S k)) by lia. cbn [seq prove_loop]. apply S2.
    - right; right. apply S1. right. done.
    - destruct (decide (pm_wg m = 0%Z)) as [Hw|Hw].
      + right; right. apply S1. right. cbn. unfold p_wait. rewrite Hw. done.
      + destruct (ppool_alive p along gs m ltac:(done) Hw) as (i & g & Hg & [Hh|Hh]).
        * right; right; left. right. apply Exists_exists. exists g. split; [|done]. by eapply elem_of_list_lookup_2.
        * right; right; right. destruct (gor_step g m) as [| |[g' m']] eqn:E; [done|by eexists; eapply step_gor_crash|]. eexists. by eapply step_gor.
    - right; right. apply S1. right. done.
    - left. by exists r, gs, m.
    - right. by left.
  Qed.
  Lemma pinv_no_hang c r : pinv c -> sequential = Ret r -> ~ hangs c.
  Proof.
    intros H Hs Hh.
    assert (G : forall p along j k opened gs m, pok p along j opened -> (k <= length p)%nat -> ppool p along k gs m -> ~ Exists (fun g => gor_hangs g = true) gs).
    { intros p along j k opened gs m Hok Hk Hpool HE. apply Exists_exists in HE as (g & Hg & Hgh). apply elem_of_list_lookup in Hg as [i Hg].
      pose proof Hpool as (xs & L & -> & _ & H1 & _). rewrite list_lookup_imap in Hg. destruct (xs !! i) as [[v s]|] eqn:Hx; [|done]. injection Hg as <-. pose proof (lookup_lt_Some _ _ _ Hx). destruct (H1 i _ Hx) as (Hv & _).
      destruct (seq_prove_at r p along j opened Hs Hok i) as (v' & rp & o & Hv' & Hmd & _); [lia|]. cbn [fst] in Hv. rewrite Hv in Hv'. injection Hv' as <-. unfold made in Hmd.
      destruct s; cbn in Hgh; try done. rewrite Hmd in Hgh. done. }
    inversion H; subst; cbn -[Nat.leb] in Hh; (try contradiction); (destruct Hh as [Hh|Hh]; [|try (by apply Exists_nil in Hh)]).
    - unfold sequential, ProveLiability in Hs. destruct (id2path id); [done..|]. done.
    - unfold sequential, ProveLiability in Hs. match goal with H : id2path id = _ |- _ => rewrite H in Hs end. cbn [rbind] in Hs. destruct (VGet id2path (ls_tree ls) id); done.
    - done.
    - destruct (1 <=? length p)%nat; done.
    - replace (length p - k)%nat with (S (length p - S k)) in Hh by lia. cbn in Hh. destruct (seq_prove_at r p along k opened Hs ltac:(done) k) as (v & rp & o & Ha & _); [done|]. rewrite Ha in Hh. done.
    - destruct (G p along k k opened gs m ltac:(done) ltac:(lia) ltac:(done) Hh).
    - done.
    - destruct (G p along k k opened gs m ltac:(done) ltac:(lia) ltac:(done) Hh).
    - destruct (seq_prove_at r p along k opened Hs ltac:(done) k) as (v' & rp & o & Ha & _ & Ho); [done|]. assert (v' = v) as -> by congruence. rewrite Ho in Hh. done.
    - destruct (G p along k (S k) opened gs m ltac:(done) ltac:(lia) ltac:(done) Hh).
    - destruct (seq_prove_tail r p along opened Hs) as (l & mk & Er); [done|]. rewrite Er in Hh. done.
    - destruct (G p along (length p) (length p) opened gs m ltac:(done) ltac:(lia) ltac:(done) Hh).
    - done.
    - destruct (G p along (length p) (length p) opened gs m ltac:(done) ltac:(lia) ltac:(done) Hh).
    - done.
    - destruct (G p along (length p) (length p) opened gs m ltac:(done) ltac:(lia) ltac:(done) Hh).
    - done.
    - match goal with H : _ = [] \/ _ |- _ => destruct H as [->|(p & along & opened & Hok & Hpool & Hw)] end; [by apply Exists_nil in Hh|].
      destruct (G p along (length p) (length p) opened gs m ltac:(done) ltac:(lia) ltac:(done) Hh).
  Qed.
  (** Once proving has returned, nothing writes to the slots any more. *)
  Lemma pinv_return_ended r gs m : pinv (Run (MReturn r) gs m) -> forall i g, gs !! i = Some g -> g = GEnd.
  Proof.
    intros H. inversion H as [| | | |p along k opened gs' m' Hok Hk Hp E| | | | | |r' gs' m' Hr Hg|]; subst.
    - exfalso. replace (length p - k)%nat with (S (length p - S k)) in E by lia. discriminate E.
    - destruct Hg as [->|(p & along & opened & Hok & (xs & L & -> & _ & _ & H2 & _) & Hw)]; [done|]. intros i g Hi. rewrite list_lookup_imap in Hi. destruct (xs !! i) as [x|] eqn:Hx; [|done]. injection Hi as <-.
      pose proof (cnt_full p_ended xs p_ended_le ltac:(lia) i x Hx) as He. destruct x as [v []]; cbn in He; try lia. done.
  Qed.
  (** *** Without goroutines *)
  Lemma inline_prove_loop p along rps opened k m : (k <= length p)%nat -> length rps = length p -> length opened = length p ->
    (forall i, (i < length p)%nat -> exists v rp o, prove_reads p along i = Ret v /\ made i v = Ret rp /\ rps !! i = Some rp /\ prove_opening pp p v i = Ret o /\ opened !! i = Some o) ->
    m = MkPM (Z.of_nat (length p) - Z.of_nat k) false ((Some <$> take k rps) ++ replicate (length p - k) None) ->
    inline (prove_loop pp co p along (take k opened) (seq k (length p - k))) m = inline (prove_tail pp co p along opened) (MkPM 0 false (Some <$> rps)).
  Proof.
    intros Hk Lr Lo Hit. remember (length p - k)%nat as d eqn:Hd. revert k m Hk Hd. induction d as [|d IH]; intros k m Hk Hd ->.
    - assert (k = length p) as -> by lia. cbn [seq prove_loop replicate]. rewrite app_nil_r, !take_ge by lia. rewrite Z.sub_diag. done.
    - cbn [seq prove_loop inline]. destruct (Hit k) as (v & rp & o & Hv & Hm & Hr & Ho & Hoi); [lia|]. rewrite Hv. cbn [rbind inline gor_inline createRangeProof]. unfold made in Hm. rewrite Hm. cbn [rbind gor_inline].
      unfold p_lock. cbn [pm_lock pm_wg pm_slots gor_inline]. unfold p_write. cbn [pm_lock pm_wg pm_slots].
      assert (Ll : length ((Some <$> take k rps) ++ replicate (S d) None) = length p) by (rewrite app_length, fmap_length, take_length, replicate_length; lia).
      rewrite Ll, (proj2 (Nat.ltb_lt _ _)) by lia. cbn [gor_inline p_unlock pm_lock pm_wg pm_slots]. unfold p_unlock. cbn [pm_lock pm_wg pm_slots]. unfold p_done. cbn [pm_lock pm_wg pm_slots].
      destruct (Z.leb_spec (Z.of_nat (length p) - Z.of_nat k) 0); [lia|]. cbn [rbind inline]. rewrite Ho. cbn [rbind]. rewrite <- (take_S_r _ _ _ Hoi). apply IH; [lia|lia|]. f_equal; [lia|].
      rewrite insert_app_r_alt by (rewrite fmap_length, take_length; lia). rewrite fmap_length, take_length, Lr, Nat.min_l by lia. rewrite Nat.sub_diag. cbn [replicate]. rewrite (take_S_r _ _ _ Hr), fmap_app. cbn [fmap list_fmap]. rewrite <- app_assoc. done.
  Qed.
  Lemma inline_prove l lp : sequential = Ret (Some (l, lp)) -> exists mk rps, inline (par_ProveLiability pp id2path co ls id) (MkPM 0 false []) = Ret (Some (l, mk, Some <$> rps)) /\ lp = mk rps.
  Proof.
    intros Hs. destruct (seq_prove_inv _ Hs) as (p & z & along & Hp & Hg & Hl & rps & opened & l' & mk & Hit & Lr & Lo & Hrest & E). injection E as -> ->. exists mk, rps. split; [|done].
    unfold par_ProveLiability. cbn [inline]. rewrite Hp. cbn [rbind inline]. rewrite Hg. cbn [rbind inline p_start pm_wg pm_lock]. rewrite (proj2 (Nat.leb_le _ _)) by done. cbn [rbind].
    pose proof (inline_prove_loop p along rps opened 0 _ ltac:(lia) Lr Lo Hit Logic.eq_refl) as E. rewrite Nat.sub_0_r in E. rewrite !take_0, fmap_nil, app_nil_l in E. change (Z.of_nat 0) with 0%Z in E. rewrite Z.sub_0_r in E. rewrite Z.add_0_l, E.
    unfold prove_tail. cbn [inline]. rewrite Hrest. cbn [rbind inline]. unfold p_wait. cbn. done.
  Qed.
End Prove.

(** ** C59 *)
(** When proving returns a proof, every slot has been filled, slot i with the range proof of the i-th vertex of the path, and the
    proof is the one of the sequential model. *)
Theorem C59_slots (C : Curve) (pp : PolPP C) id2path co ls id c l mk slots :
  rtc step (Prove_process pp id2path co ls id) c -> returned c (Some (l, mk, slots)) ->
  exists rps, slots = Some <$> rps /\ ProveLiability pp id2path co ls id = Ret (Some (l, mk rps)) /\ lp_RangeProofs (mk rps) = rps /\
  exists p z along, id2path id = Ret p /\ VGet (C:=C) id2path (ls_tree ls) id = Ret (Some (z, along)) /\ length rps = length p /\
  forall i, (i < length p)%nat -> exists v rp, along !! i = Some v /\ rps !! i = Some rp /\
    ProveRange (po_RPPP pp) (v_V v) (Vertex_Values v (ls_fanout pp + 1)) (v_bf v) (pc_range co i) = Ret rp.
Proof.
  intros Hr (gs & m & ->). apply pinv_reach, pinv_returned in Hr. destruct Hr as (rps & H1 & H2 & H3 & p & z & along & H4 & H5 & H6 & H7). exists rps. split_and!; try done. exists p, z, along. split_and!; try done.
  intros i Hi. destruct (H7 i Hi) as (v & rp & ? & ? & ?). by exists v, rp.
Qed.
(** It reports that the id is unknown only if the sequential model does. *)
Theorem C59_not_found (C : Curve) (pp : PolPP C) id2path co ls id c :
  rtc step (Prove_process pp id2path co ls id) c -> returned c None -> ProveLiability pp id2path co ls id = Ret None.
Proof. intros Hr (gs & m & ->). apply pinv_reach, pinv_returned in Hr. exact Hr. Qed.
(** Nothing changes the proof after it has been returned: every goroutine has ended. *)
Theorem C59_after_return (C : Curve) (pp : PolPP C) id2path co ls id r gs m :
  rtc step (Prove_process pp id2path co ls id) (Run (MReturn r) gs m) -> (forall g, g ∈ gs -> g = GEnd) /\ forall c, ~ step (Run (MReturn r) gs m) c.
Proof.
  intros Hr. apply pinv_reach in Hr. pose proof (pinv_return_ended _ _ _ _ _ _ _ _ Hr) as He. assert (G : forall g, g ∈ gs -> g = GEnd) by (intros g Hg; apply elem_of_list_lookup in Hg as [i Hi]; by apply (He i)). split; [done|].
  intros c Hc. inversion Hc; subst; try discriminate.
  - match goal with H : gs !! _ = Some ?g, H' : gor_step ?g _ = _ |- _ => rewrite (He _ _ H) in H'; discriminate H' end.
  - match goal with H : gs !! _ = Some ?g, H' : gor_step ?g _ = _ |- _ => rewrite (He _ _ H) in H'; discriminate H' end.
Qed.
(** If the sequential model returns, no schedule crashes or gets stuck before it has returned. *)
Theorem C59_no_crash_no_deadlock (C : Curve) (pp : PolPP C) id2path co ls id c r :
  ProveLiability pp id2path co ls id = Ret r -> rtc step (Prove_process pp id2path co ls id) c ->
  c <> Crashed /\ ((exists r', returned c r') \/ exists c', step c c').
Proof.
  intros Hs Hr. apply pinv_reach in Hr. assert (Hc : c <> Crashed) by (intros ->; inversion Hr as [| | | | | | | | | | |Hno]; by apply (Hno r)). split; [done|].
  destruct (pinv_progress _ _ _ _ _ c Hr) as [H|[H|[H|H]]]; [by left|done| |by right]. exfalso. by apply (pinv_no_hang _ _ _ _ _ c r Hr Hs).
Qed.
(** In general: no schedule waits for the lock or the WaitGroup forever. *)
Theorem C59_deadlock_free (C : Curve) (pp : PolPP C) id2path co ls id c :
  rtc step (Prove_process pp id2path co ls id) c -> (exists r, returned c r) \/ c = Crashed \/ hangs c \/ exists c', step c c'.
Proof. intros Hr. apply pinv_reach in Hr. by apply (pinv_progress _ _ _ _ _ c Hr). Qed.
(** No schedule is infinite. *)
Theorem C59_terminates (C : Curve) (pp : PolPP C) id2path co ls id :
  ~ exists f : nat -> process (PMem C) _, f 0%nat = Prove_process pp id2path co ls id /\ forall n, step (f n) (f (S n)).
Proof.
  intros (f & _ & Hf). assert (G : forall c, forall n, f n = c -> False); [|by apply (G _ 0%nat Logic.eq_refl)].
  intros c. induction (step_wf c) as [c _ IH]. intros n Hn. apply (IH (f (S n))) with (n := S n); [|done]. rewrite <- Hn. apply Hf.
Qed.
(** With ParallelismEnabled = false the proof is the one of the sequential model. *)
Theorem C59_sequential (C : Curve) (pp : PolPP C) id2path co ls id l lp :
  ProveLiability pp id2path co ls id = Ret (Some (l, lp)) <->
  exists mk rps, inline (par_ProveLiability pp id2path co ls id) (MkPM 0 false []) = Ret (Some (l, mk, Some <$> rps)) /\ lp = mk rps.
Proof.
  split; [apply inline_prove|]. intros (mk & rps & H & ->). destruct (inline_schedule _ _ _ H []) as (c & Hc & Hret). destruct (C59_slots C pp id2path co ls id c _ _ _ Hc Hret) as (rps' & E & Hs & _).
  assert (rps = rps') as ->; [|exact Hs]. clear -E. revert rps' E. induction rps as [|x l IH]; intros [|y l'] E; try discriminate E; [done|]. injection E as -> E. f_equal. by apply IH.
Qed.

(** ** Examples *)
(** Eleven goroutines: the honest proof of Prop_liability.v and its acceptance by every schedule *)
Example C58_nonvacuous : exists (pp : PolPP toy) V W lp, LiabilityProof_Verify lp pp "123456789" V W (digit_path 7) = Ret nil_error /\
  (exists c, rtc step (Verify_process lp pp "123456789" V W (digit_path 7)) c /\ returned c nil_error) /\
  forall c, rtc step (Verify_process lp pp "123456789" V W (digit_path 7)) c -> c <> Crashed /\ (returned c nil_error \/ exists c', step c c').
Proof.
  destruct ex_dense_run as (pp & g & ls & ls' & V & W & lp & H1 & H2 & H3 & H4 & H5 & H6 & H7). exists pp, V, W, lp. split; [exact H7|].
  destruct (C58_accept_one_iff_all toy lp pp "123456789" V W (digit_path 7)) as [A B]. split; [by apply A|by apply B].
Qed.
(** The same proof against another W of the root: rejected by every schedule *)
Example C58_nonvacuous_rejected : exists (pp : PolPP toy) V W W' lp e, LiabilityProof_Verify lp pp "123456789" V W (digit_path 7) = Ret nil_error /\
  LiabilityProof_Verify lp pp "123456789" V W' (digit_path 7) = Ret e /\ e <> nil_error /\
  forall c e', rtc step (Verify_process lp pp "123456789" V W' (digit_path 7)) c -> returned c e' -> e' <> nil_error.
Proof.
  destruct ex_dense_run as (pp & g & ls & ls' & V & W & lp & H1 & H2 & H3 & H4 & H5 & H6 & H7). 
  exists pp, V, W, (gadd (W : G1 toy) (gen1 toy)), lp, (Err "root W does not match public known W value"). split; [exact H7|].
  assert (E : LiabilityProof_Verify lp pp "123456789" V (gadd (W : G1 toy) (gen1 toy)) (digit_path 7) = Ret (Err "root W does not match public known W value")).
  { pose proof H7 as H8. apply C55_acceptance in H8 as (p & Hp & Hacc). unfold LiabilityProof_Verify. rewrite Hp. cbn [rbind]. unfold verify_header.
    rewrite (proj2 (Z.eqb_eq _ _)) by (pose proof (acc_W _ _ _ _ _ Hacc); lia). rewrite (proj2 (Nat.eqb_eq _ _)) by apply (acc_Digests _ _ _ _ _ Hacc). cbn [andb]. unfold idx. rewrite (acc_rootV _ _ _ _ _ Hacc), (acc_rootW _ _ _ _ _ Hacc). cbn [rbind].
    rewrite geqb_refl. destruct (geqb W (gadd (W : G1 toy) (gen1 toy))) eqn:Eg; [|done]. exfalso. apply geqb_eq in Eg. change ((W : Zr) = W + 1) in Eg. assert (E1 : (1 : Zr) = 0) by (transitivity ((W : Zr) + 1 - W); [ring|rewrite <- Eg; ring]). by apply z1_neq_0. }
  split; [exact E|]. split; [done|]. intros c e' Hc Hret ->. destruct (C58_same_verdict toy lp pp _ V _ (digit_path 7) c _ Hc Hret) as [[A _] _]. specialize (A Logic.eq_refl). rewrite E in A. discriminate A.
Qed.
(** Proving with eleven goroutines *)
Example C59_nonvacuous : exists (pp : PolPP toy) ls lp, ProveLiability pp (digit_path 7) (ex_coins pp) ls "123456789" = Ret (Some (5%Z, lp)) /\
  (exists c mk slots, rtc step (Prove_process pp (digit_path 7) (ex_coins pp) ls "123456789") c /\ returned c (Some (5%Z, mk, slots)) /\ length slots = 11%nat) /\
  forall c, rtc step (Prove_process pp (digit_path 7) (ex_coins pp) ls "123456789") c -> c <> Crashed /\ ((exists r', returned c r') \/ exists c', step c c').
Proof.
  destruct ex_dense_run as (pp & g & ls & ls' & V & W & lp & H1 & H2 & H3 & H4 & H5 & H6 & H7). exists pp, ls, lp. split; [exact H6|]. split; [|intros c Hc; by apply (C59_no_crash_no_deadlock toy pp (digit_path 7) (ex_coins pp) ls "123456789" c _ H6)].
  destruct (proj1 (C59_sequential toy pp (digit_path 7) (ex_coins pp) ls "123456789" 5 lp) H6) as (mk & rps & Hi & _). destruct (inline_schedule _ _ _ Hi []) as (c & Hc & Hret). exists c, mk, (Some <$> rps). split; [done|]. split; [done|].
  destruct (C59_slots toy pp (digit_path 7) (ex_coins pp) ls "123456789" c _ _ _ Hc Hret) as (rps' & E & _ & _ & p & z & along & Hp & _ & Hl & _). rewrite E, fmap_length, Hl. rewrite ex_dense_path1 in Hp. assert (ex_dense_p1 = p) as <- by (injection Hp; done). done.
Qed.

Print Assumptions C58_sequential.
Print Assumptions C58_same_verdict.
Print Assumptions C58_no_crash_no_deadlock.
Print Assumptions C58_deadlock_free.
Print Assumptions C58_terminates.
Print Assumptions C58_accept_one_iff_all.
Print Assumptions C59_slots.
Print Assumptions C59_not_found.
Print Assumptions C59_after_return.
Print Assumptions C59_no_crash_no_deadlock.
Print Assumptions C59_deadlock_free.
Print Assumptions C59_terminates.
Print Assumptions C59_sequential.
