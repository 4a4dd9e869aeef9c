(** The memory-level functions of common/math.go compared with those of Model_common. *)
From Verif Require Export Mem_logic.

Section Facts.
  Context {C : Curve}.
  Local Notation mem := (mem C).
  Local Notation M := (M C).

  Lemma acc_base h0 hb h X (v : G1 C) : ext [] h0 hb -> acc hb h X v -> acc h0 h X v.
  Proof.
    intros E0 (E & L & V). split_and!; [eapply ext_trans; eassumption| |exact V].
    pose proof (ext_pts_length _ _ _ E0). lia.
  Qed.
  Lemma acc_e hb h X (v : G1 C) : acc hb h X v -> ext [] hb h.
  Proof. intros H. apply H. Qed.
  Lemma acc_v hb h X (v : G1 C) : acc hb h X v -> val h X v.
  Proof. intros H. apply H. Qed.
  Lemma vals_take h ls (vs : list (G1 C)) n : vals h ls vs -> vals h (take n ls) (take n vs).
  Proof. apply Forall2_take. Qed.
  Lemma vals_drop h ls (vs : list (G1 C)) n : vals h ls vs -> vals h (drop n ls) (drop n vs).
  Proof. apply Forall2_drop. Qed.
  Lemma vals_app h l1 (v1 : list (G1 C)) l2 v2 : vals h l1 v1 -> vals h l2 v2 -> vals h (l1 ++ l2) (v1 ++ v2).
  Proof. apply Forall2_app. Qed.
  Lemma vals_cons h l (v : G1 C) ls vs : val h l v -> vals h ls vs -> vals h (l :: ls) (v :: vs).
  Proof. constructor; assumption. Qed.
  Lemma vals_nil (h : mem) : vals h [] [].
  Proof. constructor. Qed.

  (** l[i] for a slice of points *)
  Lemma runs_idx h ls (vs : list (G1 C)) i : vals h ls vs ->
    runs (mlift (idx ls i)) h (idx vs i) (fun l h' v => h' = h /\ val h l v).
  Proof.
    intros H. unfold idx. destruct (vs !! i) as [v|] eqn:Hv.
    - destruct (Forall2_lookup_r _ _ _ _ _ H Hv) as (l & Hl & Hlv). rewrite Hl. exists l, h. auto.
    - apply lookup_ge_None in Hv. rewrite <- (vals_length _ _ _ H) in Hv. apply lookup_ge_None in Hv. rewrite Hv. reflexivity.
  Qed.
  Lemma runs_idxZ h ls (vs : list (G1 C)) i : vals h ls vs ->
    runs (mlift (idxZ ls i)) h (idxZ vs i) (fun l h' v => h' = h /\ val h l v).
  Proof. intros H. unfold idxZ. destruct (i <? 0)%Z; [reflexivity|]. apply runs_idx. exact H. Qed.
  Lemma runs_idx_last h ls (vs : list (G1 C)) i : vals h ls vs ->
    runs (mlift (idx_last ls i)) h (idx_last vs i) (fun l h' v => h' = h /\ val h l v).
  Proof. intros H. unfold idx_last. rewrite (vals_length _ _ _ H). apply runs_idxZ. exact H. Qed.
  Lemma runs_slice_to h ls (vs : list (G1 C)) n : vals h ls vs ->
    runs (mlift (slice_to n ls)) h (slice_to n vs) (fun l h' v => h' = h /\ vals h l v).
  Proof.
    intros H. unfold slice_to. rewrite (vals_length _ _ _ H). destruct (n <=? length vs); [|reflexivity].
    eexists _, _. split; [reflexivity|]. split; [reflexivity|]. apply vals_take. exact H.
  Qed.
  Lemma runs_slice_from h ls (vs : list (G1 C)) n : vals h ls vs ->
    runs (mlift (slice_from n ls)) h (slice_from n vs) (fun l h' v => h' = h /\ vals h l v).
  Proof.
    intros H. unfold slice_from. rewrite (vals_length _ _ _ H). destruct (n <=? length vs); [|reflexivity].
    eexists _, _. split; [reflexivity|]. split; [reflexivity|]. apply vals_drop. exact H.
  Qed.
  Lemma runs_mapM_idx {A} h ls (vs : list (G1 C)) (f : A -> nat) js : vals h ls vs ->
    runs (mlift (mapM (fun j => idx ls (f j)) js)) h (mapM (fun j => idx vs (f j)) js) (fun l h' v => h' = h /\ vals h l v).
  Proof.
    intros H. unfold runs, mlift.
    assert (match mapM (fun j => idx vs (f j)) js with
            | Ret v => exists l, mapM (fun j => idx ls (f j)) js = Ret l /\ vals h l v
            | Panic => mapM (fun j => idx ls (f j)) js = Panic | Hang => mapM (fun j => idx ls (f j)) js = Hang end) as K.
    { induction js as [|j js IH]; cbn [mapM]; [exists []; split; [reflexivity|constructor]|].
      pose proof (runs_idx h ls vs (f j) H) as Hi. unfold runs, mlift in Hi. unfold idx at 1 in Hi. unfold idx at 1.
      destruct (vs !! f j) as [v|]; cbn [rbind].
      - destruct Hi as (l & h' & E & -> & Hv). destruct (idx ls (f j)) as [l'| |]; [|discriminate..]. injection E as ->.
        cbn [rbind]. destruct (mapM (fun j => idx vs (f j)) js) as [v'| |]; cbn [rbind].
        + destruct IH as (l' & -> & Hl'). cbn [rbind]. exists (l :: l'). split; [reflexivity|]. constructor; assumption.
        + rewrite IH. reflexivity.
        + rewrite IH. reflexivity.
      - destruct (idx ls (f j)); [discriminate|reflexivity|discriminate]. }
    destruct (mapM (fun j => idx vs (f j)) js) as [v| |].
    - destruct K as (l & -> & Hl). exists l, h. auto.
    - rewrite K. reflexivity.
    - rewrite K. reflexivity.
  Qed.

  (** ** Functions that make new points *)
  (** The shared neutral element is in place. *)
  Definition zero_ok (h : mem) : Prop := val h zeroG1 gzero.
  Lemma zero_ok_ext S h h' : ext S h h' -> zero_ok h -> zero_ok h'.
  Proof. apply val_ext. Qed.

  Lemma runs_allocs h (vs : list (G1 C)) : runs (m_allocs vs) h (Ret vs) (fun ls h' b => ext [] h h' /\ vals h' ls b).
  Proof.
    revert h. induction vs as [|v vs IH]; intros h; cbn [m_allocs].
    - apply runs_ret. split; [apply ext_refl|constructor].
    - eapply runs_step; [apply runs_alloc|]. intros l h1 A. eapply runs_step; [apply IH|]. intros ls h2 [E V].
      apply runs_ret. split; [eapply ext_trans; [apply A|exact E]|]. constructor; [|exact V].
      eapply val_ext; [exact E|apply A].
  Qed.
  Lemma runs_RandGenVec h n ctx : runs (m_RandGenVec n ctx) h (Ret (RandGenVec (C:=C) n ctx)) (fun ls h' b => ext [] h h' /\ vals h' ls b).
  Proof. apply runs_allocs. Qed.

  Lemma runs_G1v_Mul h ls (vs : list (G1 C)) x : vals h ls vs ->
    runs (m_Mul ls x) h (Ret (G1v_Mul vs x)) (fun l h' b => ext [] h h' /\ vals h' l b).
  Proof.
    revert h vs. induction ls as [|l ls IH]; intros h vs H; inversion H as [|? v ? vs' Hl Hs]; subst; cbn [m_Mul].
    - apply runs_ret. split; [apply ext_refl|constructor].
    - eapply runs_step; [apply runs_Mul; exact Hl|]. intros r h1 A.
      eapply runs_step; [apply IH; eapply vals_ext; [apply A|exact Hs]|].
      intros rs h2 [E V]. apply runs_ret. split; [eapply ext_trans; [apply A|exact E]|]. constructor; [|exact V].
      eapply val_ext; [exact E|apply A].
  Qed.
  Lemma runs_mulv_loop h ls (vs : list (G1 C)) xs : zero_ok h -> vals h ls vs -> length ls = length xs ->
    runs (m_mulv_loop ls xs) h (Ret (zip_with (fun P x => if zeqb x (zr 0) then gzero else gmul x P) vs xs))
      (fun l h' b => ext [] h h' /\ vals h' l b).
  Proof.
    revert h vs xs. induction ls as [|l ls IH]; intros h vs xs Z H Hl; inversion H as [|? v ? vs' Hv Hs]; subst;
      (destruct xs as [|x xs]; [try discriminate|try discriminate]); cbn [m_mulv_loop zip_with].
    - apply runs_ret. split; [apply ext_refl|constructor].
    - eapply (runs_step _ _ _ (if zeqb x (zr 0) then gzero else gmul x v) _ (fun r h' b => ext [] h h' /\ val h' r b)).
      { destruct (zeqb x (zr 0)); [apply runs_ret; split; [apply ext_refl|exact Z]|].
        eapply runs_post; [apply runs_Mul; exact Hv|]. intros r h' b _ A. split; apply A. }
      intros r h1 [E1 V1]. eapply runs_step.
      { apply (IH h1 vs' xs); [eapply zero_ok_ext; eassumption|eapply vals_ext; eassumption|cbn in Hl; lia]. }
      intros rs h2 [E V]. apply runs_ret. split; [eapply ext_trans; eassumption|]. constructor; [|exact V].
      eapply val_ext; eassumption.
  Qed.
  Lemma runs_MulV h ls (vs : list (G1 C)) xs : zero_ok h -> vals h ls vs ->
    runs (m_MulV ls xs) h (G1v_MulV vs xs) (fun l h' b => ext [] h h' /\ vals h' l b).
  Proof.
    intros Z H. unfold m_MulV, G1v_MulV. rewrite (vals_length _ _ _ H).
    destruct (length vs =? length xs)%nat eqn:E; [|reflexivity]. apply Nat.eqb_eq in E.
    apply runs_mulv_loop; [exact Z|exact H|]. rewrite (vals_length _ _ _ H). exact E.
  Qed.
  Lemma runs_G1v_Add h l1 (v1 : list (G1 C)) l2 v2 : vals h l1 v1 -> vals h l2 v2 ->
    runs (m_G1v_Add l1 l2) h (G1v_Add v1 v2) (fun l h' b => ext [] h h' /\ vals h' l b).
  Proof.
    revert h v1 l2 v2. induction l1 as [|a l1 IH]; intros h v1 l2 v2 H1 H2; inversion H1 as [|? v ? vs' Hv Hs]; subst;
      cbn [m_G1v_Add].
    - apply runs_ret. split; [apply ext_refl|constructor].
    - inversion H2 as [|b w l2' v2' Hw Hs2]; subst; [reflexivity|].
      specialize (IH). unfold G1v_Add. cbn [length Nat.leb zip_with].
      pose proof (IH h vs' l2' v2' Hs Hs2) as K. unfold G1v_Add in K.
      destruct (length vs' <=? length v2')%nat eqn:El.
      + eapply runs_step; [apply runs_Copy; exact Hv|]. intros r h1 A.
        eapply runs_step; [eapply runs_Add; [exact A|eapply val_ext; [apply A|exact Hw]]|]. intros ? h2 A2. cbn beta in A2.
        pose proof (IH h2 vs' l2' v2' (vals_ext _ _ _ _ _ (acc_e _ _ _ _ A2) Hs) (vals_ext _ _ _ _ _ (acc_e _ _ _ _ A2) Hs2)) as K2.
        unfold G1v_Add in K2. rewrite El in K2.
        eapply runs_step; [exact K2|]. intros rs h3 [E V]. apply runs_ret.
        split; [eapply ext_trans; [apply A2|exact E]|]. constructor; [|exact V]. eapply val_ext; [exact E|apply A2].
      + eapply runs_step; [apply runs_Copy; exact Hv|]. intros r h1 A.
        eapply runs_step; [eapply runs_Add; [exact A|eapply val_ext; [apply A|exact Hw]]|]. intros ? h2 A2. cbn beta in A2.
        pose proof (IH h2 vs' l2' v2' (vals_ext _ _ _ _ _ (acc_e _ _ _ _ A2) Hs) (vals_ext _ _ _ _ _ (acc_e _ _ _ _ A2) Hs2)) as K2.
        unfold G1v_Add in K2. rewrite El in K2. unfold runs in K2 |- *. unfold mbind. rewrite K2. reflexivity.
  Qed.
  Lemma runs_HadamardProd h l1 (v1 : list (G1 C)) l2 v2 : vals h l1 v1 -> vals h l2 v2 ->
    runs (m_HadamardProd l1 l2) h (G1v_HadamardProd v1 v2) (fun l h' b => ext [] h h' /\ vals h' l b).
  Proof. apply runs_G1v_Add. Qed.
  Lemma runs_neg_loop h z ls (vs : list (G1 C)) : val h z gzero -> vals h ls vs ->
    runs (m_neg_loop z ls) h (Ret (G1v_Neg vs)) (fun l h' b => ext [] h h' /\ vals h' l b).
  Proof.
    revert h vs. induction ls as [|l ls IH]; intros h vs Z H; inversion H as [|? v ? vs' Hl Hs]; subst; cbn [m_neg_loop].
    - apply runs_ret. split; [apply ext_refl|constructor].
    - eapply runs_step; [apply runs_Copy; exact Z|]. intros r h1 A.
      eapply runs_step; [eapply runs_Sub; [exact A|eapply val_ext; [apply A|exact Hl]]|]. intros ? h2 A2. cbn beta in A2.
      eapply runs_step; [apply IH; [eapply val_ext; [apply A2|exact Z]|eapply vals_ext; [apply A2|exact Hs]]|].
      intros rs h3 [E V]. apply runs_ret. split; [eapply ext_trans; [apply A2|exact E]|]. constructor; [|exact V].
      eapply val_ext; [exact E|apply A2].
  Qed.
  Lemma runs_Neg h ls (vs : list (G1 C)) : val h GenG1 (gen1 C) -> vals h ls vs ->
    runs (m_Neg ls) h (Ret (G1v_Neg vs)) (fun l h' b => ext [] h h' /\ vals h' l b).
  Proof.
    intros G H. unfold m_Neg. eapply runs_step; [apply runs_Copy; exact G|]. intros z h1 A.
    eapply runs_step; [eapply runs_Sub; [exact A|apply A]|]. intros ? h2 A2. cbn beta in A2.
    eapply runs_post; [apply runs_neg_loop; [|eapply vals_ext; [apply A2|exact H]]|].
    - destruct A2 as (_ & _ & V). replace gzero with (gadd (gen1 C) (gopp (gen1 C))); [exact V|]. module.
    - intros l h' b _ [E V]. split; [eapply ext_trans; [apply A2|exact E]|exact V].
  Qed.
  Lemma runs_sum_loop hb h X (v : G1 C) ls vs : acc hb h X v -> vals hb ls vs ->
    runs (m_sum_loop X ls) h (Ret (fold_left (fun acc Q => if geqb Q gzero then acc else gadd acc Q) vs v)) (fun _ h' b => acc hb h' X b).
  Proof.
    revert h v vs. induction ls as [|l ls IH]; intros h v vs A H; inversion H as [|? w ? vs' Hl Hs]; subst; cbn [m_sum_loop fold_left].
    - apply runs_ret. exact A.
    - assert (val h l w) as Hlh by (eapply val_ext; [apply A|exact Hl]).
      eapply runs_step; [apply runs_IsInfinity; exact Hlh|]. intros ? ? [-> ->]. destruct (geqb w gzero).
      + eapply runs_step; [apply (runs_ret tt h tt (fun _ h' _ => h' = h)); reflexivity|]. intros ? ? ->. apply IH; assumption.
      + eapply runs_step; [eapply runs_Add; [exact A|exact Hlh]|]. intros ? h' A'. apply IH; assumption.
  Qed.
  Lemma runs_Sum h ls (vs : list (G1 C)) : vals h ls vs -> runs (m_Sum ls) h (G1v_Sum vs) (fun l h' b => acc h h' l b).
  Proof.
    intros H. inversion H as [|l v ls' vs' Hl Hs]; subst; [reflexivity|]. unfold m_Sum, G1v_Sum.
    eapply runs_step; [apply runs_Copy; exact Hl|]. intros X h1 A.
    eapply runs_step; [eapply runs_sum_loop; [exact A|exact Hs]|]. intros ? h2 A2. apply runs_ret. exact A2.
  Qed.
  Lemma runs_exp_loop hb h X (v : G1 C) xs ls vs : acc hb h X v -> vals hb ls vs ->
    runs (m_exp_loop X xs ls) h (Ret (fold_left (fun acc xP => gadd acc (gmul (fst xP) (snd xP))) (zip xs vs) v)) (fun _ h' b => acc hb h' X b).
  Proof.
    revert h v vs xs. induction ls as [|l ls IH]; intros h v vs xs A H; inversion H as [|? w ? vs' Hl Hs]; subst;
      (destruct xs as [|x xs]; cbn [m_exp_loop zip zip_with fold_left fst snd]; [apply runs_ret; exact A|]).
    - apply runs_ret. exact A.
    - eapply runs_step; [eapply runs_Mul, val_ext; [apply A|exact Hl]|]. intros t h1 T.
      eapply runs_step; [eapply runs_Add; [exact (acc_ext _ _ _ _ _ A (acc_e _ _ _ _ T))|exact (acc_v _ _ _ _ T)]|].
      intros ? h' A'. apply IH; assumption.
  Qed.
  Lemma runs_Exp h xs ls (vs : list (G1 C)) : vals h ls vs -> runs (m_Exp xs ls) h (Vec_Exp xs vs) (fun l h' b => acc h h' l b).
  Proof.
    intros H. unfold m_Exp, Vec_Exp. rewrite (vals_length _ _ _ H). destruct (length xs =? length vs)%nat; [|reflexivity].
    inversion H as [|l v ls' vs' Hl Hs]; subst; (destruct xs as [|x xs]; [reflexivity|]); cbn [zip zip_with]; [reflexivity|].
    eapply runs_step; [apply runs_Mul; exact Hl|]. intros X h1 A.
    eapply runs_step; [eapply runs_exp_loop; [exact A|exact Hs]|]. intros ? h2 A2. apply runs_ret. exact A2.
  Qed.
  Lemma runs_dup_loop h l (v : G1 C) n : val h l v ->
    runs (m_dup_loop l n) h (Ret (replicate n v)) (fun l h' b => ext [] h h' /\ vals h' l b).
  Proof.
    revert h. induction n as [|n IH]; intros h H; cbn [m_dup_loop replicate].
    - apply runs_ret. split; [apply ext_refl|constructor].
    - eapply runs_step; [apply runs_Copy; exact H|]. intros r h1 A.
      eapply runs_step; [apply IH; eapply val_ext; [apply A|exact H]|].
      intros rs h2 [E V]. apply runs_ret. split; [eapply ext_trans; [apply A|exact E]|]. constructor; [|exact V].
      eapply val_ext; [exact E|apply A].
  Qed.
  Lemma runs_Duplicate h ls (vs : list (G1 C)) n : vals h ls vs ->
    runs (m_Duplicate ls n) h (G1v_Duplicate vs n) (fun l h' b => ext [] h h' /\ vals h' l b).
  Proof.
    intros H. inversion H as [|l v ls' vs' Hl Hs]; subst; [reflexivity|].
    inversion Hs as [|l2 v2 ls2 vs2 Hl2 Hs2]; subst; [|reflexivity]. apply runs_dup_loop. exact Hl.
  Qed.
  Lemma runs_InnerProd h ls (vs : list (G1 C)) b : vals h ls vs ->
    runs (m_InnerProd ls b) h (G1v_InnerProd vs b) (fun a h' b => h' = h /\ a = b).
  Proof.
    intros H. unfold m_InnerProd. eapply runs_step; [apply runs_derefs; exact H|]. intros ? ? [-> ->]. apply runs_lift.
  Qed.
End Facts.
