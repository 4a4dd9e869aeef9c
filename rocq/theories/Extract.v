(** Extraction lemmas shared by the soundness theorems of the folding protocols; everything is over an
    arbitrary Zr-module, no model code involved. *)
From Verif Require Import Spec.
Local Open Scope Zr_scope.

Lemma cons_inv {A} (x y : A) l l' : x :: l = y :: l' -> x = y /\ l = l'.
Proof. intros H; inversion H; done. Qed.

(** ** Polynomials vanish when they have too many roots *)
Fixpoint peval (cs : list Zr) (x : Zr) : Zr := match cs with [] => 0 | c :: cs => c + x * peval cs x end.
(** synthetic division by (X - x) *)
Fixpoint pdiv (cs : list Zr) (x : Zr) : list Zr :=
  match cs with [] => [] | c :: cs => match cs with [] => [] | _ => peval cs x :: pdiv cs x end end.
Lemma pdiv_eval cs x y : peval cs y = peval cs x + (y - x) * peval (pdiv cs x) y.
Proof.
  induction cs as [|c cs IH]; [cbn; ring|]. destruct cs as [|c' cs].
  - cbn. ring.
  - change (pdiv (c :: c' :: cs) x) with (peval (c' :: cs) x :: pdiv (c' :: cs) x).
    cbn [peval] in *. rewrite IH. ring.
Qed.
Lemma pdiv_length cs x : length (pdiv cs x) = pred (length cs).
Proof.
  induction cs as [|c cs IH]; [done|]. destruct cs as [|c' cs]; [done|].
  change (pdiv (c :: c' :: cs) x) with (peval (c' :: cs) x :: pdiv (c' :: cs) x). cbn [length] in *. lia.
Qed.
Lemma pdiv_zero cs x : Forall (fun c => c = 0) (pdiv cs x) -> Forall (fun c => c = 0) (tail cs).
Proof.
  induction cs as [|c cs IH]; [done|]. destruct cs as [|c' cs]; [done|].
  change (pdiv (c :: c' :: cs) x) with (peval (c' :: cs) x :: pdiv (c' :: cs) x).
  intros H. apply Forall_cons in H. destruct H as [H1 H2]. specialize (IH H2). cbn [tail] in *.
  constructor; [|exact IH]. cbn [peval] in H1.
  assert (E : forall l, Forall (fun c => c = 0) l -> peval l x = 0).
  { induction l as [|d l IHl]; intros Hl; [done|]. apply Forall_cons in Hl. destruct Hl as [-> Hl]. cbn. rewrite IHl by done. ring. }
  rewrite (E cs IH) in H1. rewrite <- H1. ring.
Qed.
Lemma poly_roots cs xs : length cs = length xs -> NoDup xs -> Forall (fun x => peval cs x = 0) xs ->
  Forall (fun c => c = 0) cs.
Proof.
  revert cs. induction xs as [|x xs IH]; intros cs Hl Hd Hr.
  - destruct cs; [constructor|done].
  - apply NoDup_cons in Hd. destruct Hd as [Hx Hd]. apply Forall_cons in Hr. destruct Hr as [H0 Hr].
    assert (Hq : Forall (fun c => c = 0) (pdiv cs x)).
    { apply IH; [rewrite pdiv_length; cbn in Hl; lia|done|].
      apply Forall_forall. intros y Hy. rewrite Forall_forall in Hr. specialize (Hr y Hy). cbn beta in Hr.
      rewrite (pdiv_eval cs x y), H0 in Hr.
      assert (Hm : (y - x) * peval (pdiv cs x) y = 0) by (rewrite <- Hr; ring).
      apply zmul_eq_0 in Hm. destruct Hm as [Hm|Hm]; [|done]. apply zsub_eq_0 in Hm. subst. contradiction. }
    apply pdiv_zero in Hq. destruct cs as [|c cs]; [done|]. cbn [tail] in Hq.
    constructor; [|done]. cbn [peval] in H0.
    assert (E : peval cs x = 0).
    { clear -Hq. induction Hq as [|d l Hd Hl IHl]; [done|]. cbn. rewrite IHl, Hd. ring. }
    rewrite E in H0. rewrite <- H0. ring.
Qed.

(** ** Solving T_i = X_i L + P + X_i^-1 R for L, P, R from three values of X *)
Definition lden (X Y Z : Zr) : Zr := zinv ((X - Y) * (X - Z)).
Definition coL (X Y Z : Zr) : Zr := X * lden X Y Z.
Definition coP (X Y Z : Zr) : Zr := - (X * (Y + Z) * lden X Y Z).
Definition coR (X Y Z : Zr) : Zr := X * Y * Z * lden X Y Z.
Definition comb3 {M : Grp} (co : Zr -> Zr -> Zr -> Zr) (X Y Z : Zr) (T1 T2 T3 : M) : M :=
  gadd (gadd (gmul (co X Y Z) T1) (gmul (co Y X Z) T2)) (gmul (co Z X Y) T3).

Section Extract.
  Context {M : Grp}.
  Lemma quad_extract (X Y Z : Zr) (L P R : M) :
    X <> 0 -> Y <> 0 -> Z <> 0 -> X <> Y -> X <> Z -> Y <> Z ->
    let T x := gadd (gadd (gmul x L) P) (gmul (zinv x) R) in
    comb3 coL X Y Z (T X) (T Y) (T Z) = L /\
    comb3 coP X Y Z (T X) (T Y) (T Z) = P /\
    comb3 coR X Y Z (T X) (T Y) (T Z) = R.
  Proof.
    intros HX HY HZ HXY HXZ HYZ T. unfold T, comb3, coL, coP, coR, lden.
    assert (X - Y <> 0) by (intros E; apply zsub_eq_0 in E; done).
    assert (X - Z <> 0) by (intros E; apply zsub_eq_0 in E; done).
    assert (Y - Z <> 0) by (intros E; apply zsub_eq_0 in E; done).
    assert (Y - X <> 0) by (intros E; apply zsub_eq_0 in E; congruence).
    assert (Z - X <> 0) by (intros E; apply zsub_eq_0 in E; congruence).
    assert (Z - Y <> 0) by (intros E; apply zsub_eq_0 in E; congruence).
    repeat split; module_pre; field; repeat split; try assumption.
  Qed.
End Extract.

(** ** Openings *)
Definition opening {M : Grp} (U : M) (g h : list M) (a b : list Zr) (c : Zr) : M :=
  gadd (gadd (msm a g) (msm b h)) (gmul c U).
(** No relation between the generators (in a cyclic group a relation always exists but nobody is
    supposed to know one; in a free module, i.e. for provers that give representations, independence
    really holds). *)
Definition indep {M : Grp} (U : M) (g h : list M) : Prop :=
  forall a b c, length a = length g -> length b = length h -> opening U g h a b c = gzero ->
    a = zeros (length g) /\ b = zeros (length h) /\ c = 0.
(** The folded generators x·(left half) + y·(right half). *)
Definition fold2 {M : Grp} (x y : Zr) (n : nat) (g : list M) : list M :=
  gvadd (gvscale x (take n g)) (gvscale y (drop n g)).

Section Open.
  Context {M : Grp}.
  Implicit Types (U : M) (g h : list M) (a b : list Zr).

  Lemma vsub_zeros a b n : length a = n -> length b = n -> vsub a b = zeros n -> a = b.
  Proof.
    revert b n. induction a as [|x a IH]; intros [|y b] n Ha Hb E; cbn in *; subst; try done.
    cbn in E. apply cons_inv in E. destruct E as [E1 E2]. f_equal; [by apply zsub_eq_0|]. eapply IH; [done| |exact E2]. lia.
  Qed.
  Lemma opening_inj U g h a b c a' b' c' : indep U g h ->
    length a = length g -> length b = length h -> length a' = length g -> length b' = length h ->
    opening U g h a b c = opening U g h a' b' c' -> a = a' /\ b = b' /\ c = c'.
  Proof.
    intros Hi Ha Hb Ha' Hb' E.
    destruct (Hi (vsub a a') (vsub b b') (c - c')) as (E1 & E2 & E3).
    - rewrite vsub_length by lia. done.
    - rewrite vsub_length by lia. done.
    - unfold opening in *. rewrite !msm_vsub by lia.
      apply (f_equal (fun T => gadd T (gopp (gadd (gadd (msm a' g) (msm b' h)) (gmul c' U))))) in E.
      rewrite gadd_opp_r in E. rewrite <- E. module.
    - split; [|split].
      + eapply vsub_zeros; [| |exact E1]; lia.
      + eapply vsub_zeros; [| |exact E2]; lia.
      + by apply zsub_eq_0.
  Qed.
  Lemma msm_fold2' (x y : Zr) n (s : list Zr) g : length s = n -> length g = (n + n)%nat ->
    msm s (fold2 x y n g) = msm (vscale x s ++ vscale y s) g.
  Proof.
    intros Hs Hg. unfold fold2. rewrite msm_gvadd by (rewrite !gvscale_length, take_length, drop_length; lia).
    rewrite !msm_gvscale. rewrite <- (take_drop n g) at 3.
    rewrite msm_app by (rewrite vscale_length, take_length; lia). rewrite !msm_vscale. done.
  Qed.
  Lemma fold2_length x y n g : length g = (n + n)%nat -> length (fold2 x y n g) = n.
  Proof.
    intros H. unfold fold2. rewrite gvadd_length; rewrite !gvscale_length, ?take_length, ?drop_length; lia.
  Qed.
  Lemma opening_fold U g h a b c x n :
    length a = n -> length b = n -> length g = (n + n)%nat -> length h = (n + n)%nat ->
    opening U (fold2 (zinv x) x n g) (fold2 x (zinv x) n h) a b c =
    opening U g h (vscale (zinv x) a ++ vscale x a) (vscale x b ++ vscale (zinv x) b) c.
  Proof. intros. unfold opening. rewrite !msm_fold2' by done. done. Qed.

  Lemma vscale_zeros x a n : x <> 0 -> length a = n -> vscale x a = zeros n -> a = zeros n.
  Proof.
    intros Hx. revert n. induction a as [|y a IH]; intros n Hn E; cbn in *; subst n; [done|].
    cbn in E. apply cons_inv in E. destruct E as [E1 E2]. cbn. f_equal; [|by apply IH].
    apply zmul_eq_0 in E1. destruct E1; [done|done].
  Qed.
  Lemma indep_fold U g h x n : x <> 0 -> length g = (n + n)%nat -> length h = (n + n)%nat ->
    indep U g h -> indep U (fold2 (zinv x) x n g) (fold2 x (zinv x) n h).
  Proof.
    intros Hx Hg Hh Hi a b c Ha Hb E. rewrite !fold2_length by done. rewrite fold2_length in Ha, Hb by done.
    rewrite opening_fold in E by done. apply Hi in E; [|rewrite app_length, !vscale_length; lia..].
    destruct E as (E1 & E2 & E3).
    assert (Hz : forall (l l' : list Zr), length l = n -> length l' = n -> l ++ l' = zeros (n + n) -> l = zeros n /\ l' = zeros n).
    { intros l l' Hl Hl' E. unfold zeros in E. rewrite replicate_add in E. apply app_inj_1 in E; [exact E|].
      rewrite replicate_length. done. }
    rewrite Hg in E1. rewrite Hh in E2.
    apply Hz in E1; [|rewrite vscale_length; done..]. apply Hz in E2; [|rewrite vscale_length; done..].
    destruct E1 as [_ E1]. destruct E2 as [E2 _].
    split; [|split]; [apply (vscale_zeros x); done|apply (vscale_zeros x); done|done].
  Qed.

  (** Coordinates of the three extracted openings: only the middle one survives. *)
  Lemma coord_extract (x : nat -> Zr) (p1 p2 p3 q1 q2 q3 : Zr) (s : nat -> Zr) :
    (forall i, (i < 4)%nat -> x i <> 0) ->
    NoDup [x 0%nat * x 0%nat; x 1%nat * x 1%nat; x 2%nat * x 2%nat; x 3%nat * x 3%nat] ->
    (forall i, (i < 4)%nat -> x i * x i * p1 + p2 + zinv (x i * x i) * p3 = zinv (x i) * s i) ->
    (forall i, (i < 4)%nat -> x i * x i * q1 + q2 + zinv (x i * x i) * q3 = x i * s i) ->
    q1 = p2 /\ q3 = 0 /\ p1 = 0 /\ p3 = q2 /\ (forall i, (i < 4)%nat -> s i = x i * p2 + zinv (x i) * q2).
  Proof.
    intros Hx Hd Hp Hq.
    assert (H : Forall (fun c => c = 0) [- q3; p3 - q2; p2 - q1; p1]).
    { eapply (poly_roots _ [x 0%nat * x 0%nat; x 1%nat * x 1%nat; x 2%nat * x 2%nat; x 3%nat * x 3%nat]); [done|exact Hd|].
      assert (Hev : forall i, (i < 4)%nat -> peval [- q3; p3 - q2; p2 - q1; p1] (x i * x i) = 0).
      { intros i Hi. specialize (Hx i Hi). specialize (Hp i Hi). specialize (Hq i Hi).
        assert (Hp' : x i * x i * (x i * x i * p1 + p2 + zinv (x i * x i) * p3) = x i * s i).
        { rewrite Hp. field. done. }
        rewrite <- Hq in Hp'.
        assert (E : x i * x i * (x i * x i * (x i * x i * p1 + p2 + zinv (x i * x i) * p3)) =
                    x i * x i * (x i * x i * q1 + q2 + zinv (x i * x i) * q3)) by (rewrite Hp'; done).
        cbn [peval].
        assert (E' : x i * x i * x i * x i * x i * x i * p1 + x i * x i * x i * x i * p2 + x i * x i * p3 =
                     x i * x i * x i * x i * q1 + x i * x i * q2 + q3).
        { transitivity (x i * x i * (x i * x i * (x i * x i * p1 + p2 + zinv (x i * x i) * p3))); [field; done|].
          rewrite E. field. done. }
        transitivity (x i * x i * x i * x i * x i * x i * p1 + x i * x i * x i * x i * p2 + x i * x i * p3 -
                     (x i * x i * x i * x i * q1 + x i * x i * q2 + q3)); [ring|]. rewrite E'. ring. }
      repeat constructor; apply Hev; lia. }
    rewrite !Forall_cons in H. destruct H as (H3 & H2 & H1 & H0 & _).
    assert (q3 = 0) by (transitivity (- - q3); [ring|rewrite H3; ring]).
    apply zsub_eq_0 in H2, H1.
    repeat split; try congruence. intros i Hi. specialize (Hx i Hi). specialize (Hp i Hi).
    subst p1 p3. transitivity (x i * (zinv (x i) * s i)); [field; done|]. rewrite <- Hp. field. done.
  Qed.

  Lemma nth_vscale x a i : nth i (vscale x a) 0 = x * nth i a 0.
  Proof. revert i. induction a as [|y a IH]; intros [|i]; cbn; rewrite ?zmul_0_r; auto. Qed.
  Lemma nth_vadd a b i : length a = length b -> nth i (vadd a b) 0 = nth i a 0 + nth i b 0.
  Proof.
    revert b i. induction a as [|y a IH]; intros [|z b] [|i] H; cbn in *; try done; try ring. apply IH. lia.
  Qed.
  Lemma list_nth_ext (a b : list Zr) : length a = length b -> (forall i, (i < length a)%nat -> nth i a 0 = nth i b 0) -> a = b.
  Proof.
    revert b. induction a as [|x a IH]; intros [|y b] Hl H; cbn in *; try done.
    f_equal; [apply (H 0%nat); lia|]. apply IH; [lia|]. intros i Hi. apply (H (S i)). lia.
  Qed.
  Lemma nth_take_z n i (a : list Zr) : (i < n)%nat -> nth i (take n a) 0 = nth i a 0.
  Proof. revert n a. induction i as [|i IH]; intros [|n] [|x a] H; cbn; try lia; try done. apply IH. lia. Qed.
  Lemma nth_drop_z n i (a : list Zr) : nth i (drop n a) 0 = nth (n + i) a 0.
  Proof. revert a. induction n as [|n IH]; intros [|x a]; cbn; auto; destruct i; auto. Qed.

  Definition comb3v (co : Zr -> Zr -> Zr -> Zr) (X Y Z : Zr) (a b c : list Zr) : list Zr :=
    vadd (vadd (vscale (co X Y Z) a) (vscale (co Y X Z) b)) (vscale (co Z X Y) c).
  Definition comb3z (co : Zr -> Zr -> Zr -> Zr) (X Y Z : Zr) (a b c : Zr) : Zr :=
    co X Y Z * a + co Y X Z * b + co Z X Y * c.
  Lemma comb3_opening co X Y Z U g h a1 b1 c1 a2 b2 c2 a3 b3 c3 :
    length a1 = length a2 -> length a2 = length a3 -> length b1 = length b2 -> length b2 = length b3 ->
    comb3 co X Y Z (opening U g h a1 b1 c1) (opening U g h a2 b2 c2) (opening U g h a3 b3 c3) =
    opening U g h (comb3v co X Y Z a1 a2 a3) (comb3v co X Y Z b1 b2 b3) (comb3z co X Y Z c1 c2 c3).
  Proof.
    intros. unfold comb3, opening, comb3v, comb3z.
    rewrite !msm_vadd, !msm_vscale by (rewrite ?vadd_length; rewrite ?vscale_length; lia).
    module.
  Qed.
  Lemma comb3v_length co X Y Z a1 a2 a3 : length a1 = length a2 -> length a2 = length a3 ->
    length (comb3v co X Y Z a1 a2 a3) = length a1.
  Proof. intros. unfold comb3v. rewrite !vadd_length; rewrite ?vscale_length; try lia. rewrite vadd_length; rewrite !vscale_length; lia. Qed.

  Lemma opening_lin U g h x y aL bL cL aP bP cP aR bR cR :
    length aL = length aP -> length aP = length aR -> length bL = length bP -> length bP = length bR ->
    gadd (gadd (gmul x (opening U g h aL bL cL)) (opening U g h aP bP cP)) (gmul y (opening U g h aR bR cR)) =
    opening U g h (vadd (vadd (vscale x aL) aP) (vscale y aR)) (vadd (vadd (vscale x bL) bP) (vscale y bR)) (x * cL + cP + y * cR).
  Proof.
    intros. unfold opening.
    rewrite !msm_vadd, !msm_vscale by (rewrite ?vadd_length; rewrite ?vscale_length; lia).
    module.
  Qed.

  Section Round.
    Context (U : M) (g h : list M) (n : nat) (L R P : M) (x : nat -> Zr) (a b : nat -> list Zr).
    Context (Hg : length g = (n + n)%nat) (Hh : length h = (n + n)%nat) (Hi : indep U g h).
    Context (Hx : forall i, (i < 4)%nat -> x i <> 0).
    Context (Hd : NoDup [x 0%nat * x 0%nat; x 1%nat * x 1%nat; x 2%nat * x 2%nat; x 3%nat * x 3%nat]).
    Context (Ha : forall i, (i < 4)%nat -> length (a i) = n) (Hb : forall i, (i < 4)%nat -> length (b i) = n).
    Context (Hfold : forall i, (i < 4)%nat ->
      gadd (gadd (gmul (x i * x i) L) P) (gmul (zinv (x i * x i)) R) =
      opening U (fold2 (zinv (x i)) (x i) n g) (fold2 (x i) (zinv (x i)) n h) (a i) (b i) (dot (a i) (b i))).

    Lemma round_knowledge : exists va vb, length va = (n + n)%nat /\ length vb = (n + n)%nat /\
      P = opening U g h va vb (dot va vb).
    Proof.
      set (A i := vscale (zinv (x i)) (a i) ++ vscale (x i) (a i)).
      set (B i := vscale (x i) (b i) ++ vscale (zinv (x i)) (b i)).
      assert (HA : forall i, (i < 4)%nat -> length (A i) = (n + n)%nat).
      { intros i Hi4. unfold A. rewrite app_length, !vscale_length, Ha by done. done. }
      assert (HB : forall i, (i < 4)%nat -> length (B i) = (n + n)%nat).
      { intros i Hi4. unfold B. rewrite app_length, !vscale_length, Hb by done. done. }
      assert (Hf : forall i, (i < 4)%nat -> gadd (gadd (gmul (x i * x i) L) P) (gmul (zinv (x i * x i)) R) =
        opening U g h (A i) (B i) (dot (a i) (b i))).
      { intros i Hi4. rewrite Hfold by done. apply opening_fold; auto. }
      assert (Hdd : forall i j, (i < j < 4)%nat -> x i * x i <> x j * x j).
      { intros i j Hij E. rewrite !NoDup_cons, !elem_of_cons in Hd. 
        destruct Hd as (D0 & D1 & D2 & _).
        destruct i as [|[|[|i]]]; destruct j as [|[|[|[|j]]]]; try lia; rewrite E in *; tauto. }
      assert (Hxx : forall i, (i < 4)%nat -> x i * x i <> 0) by (intros; apply zmul_neq_0; auto).
      destruct (quad_extract (x 0%nat * x 0%nat) (x 1%nat * x 1%nat) (x 2%nat * x 2%nat) L P R)
        as (EL & EP & ER); [apply Hxx; lia..|apply Hdd; lia|apply Hdd; lia|apply Hdd; lia|].
      cbv zeta in EL, EP, ER. rewrite !Hf in EL, EP, ER by lia.
      rewrite comb3_opening in EL, EP, ER by (rewrite ?HA, ?HB by lia; done).
      set (aL := comb3v coL _ _ _ (A _) _ _) in EL. set (bL := comb3v coL _ _ _ (B _) _ _) in EL. set (cL := comb3z coL _ _ _ _ _ _) in EL.
      set (aP := comb3v coP _ _ _ (A _) _ _) in EP. set (bP := comb3v coP _ _ _ (B _) _ _) in EP. set (cP := comb3z coP _ _ _ _ _ _) in EP.
      set (aR := comb3v coR _ _ _ (A _) _ _) in ER. set (bR := comb3v coR _ _ _ (B _) _ _) in ER. set (cR := comb3z coR _ _ _ _ _ _) in ER.
      assert (LaL : length aL = (n + n)%nat) by (unfold aL; rewrite comb3v_length; rewrite !HA by lia; done).
      assert (LaP : length aP = (n + n)%nat) by (unfold aP; rewrite comb3v_length; rewrite !HA by lia; done).
      assert (LaR : length aR = (n + n)%nat) by (unfold aR; rewrite comb3v_length; rewrite !HA by lia; done).
      assert (LbL : length bL = (n + n)%nat) by (unfold bL; rewrite comb3v_length; rewrite !HB by lia; done).
      assert (LbP : length bP = (n + n)%nat) by (unfold bP; rewrite comb3v_length; rewrite !HB by lia; done).
      assert (LbR : length bR = (n + n)%nat) by (unfold bR; rewrite comb3v_length; rewrite !HB by lia; done).
      clearbody aL bL cL aP bP cP aR bR cR.
      assert (Heq : forall i, (i < 4)%nat ->
        vadd (vadd (vscale (x i * x i) aL) aP) (vscale (zinv (x i * x i)) aR) = A i /\
        vadd (vadd (vscale (x i * x i) bL) bP) (vscale (zinv (x i * x i)) bR) = B i /\
        x i * x i * cL + cP + zinv (x i * x i) * cR = dot (a i) (b i)).
      { intros i Hi4. apply (opening_inj U g h).
        - exact Hi.
        - rewrite !vadd_length; rewrite ?vscale_length; rewrite ?vadd_length; rewrite ?vscale_length; lia.
        - rewrite !vadd_length; rewrite ?vscale_length; rewrite ?vadd_length; rewrite ?vscale_length; lia.
        - rewrite HA; lia.
        - rewrite HB; lia.
        - rewrite <- opening_lin by lia. rewrite EL, EP, ER. apply Hf. done. }
      (* a-coordinates *)
      assert (Ca : forall j, (j < n)%nat -> forall i, (i < 4)%nat -> nth j (a i) 0 = x i * nth j aP 0 + zinv (x i) * nth (n + j) aP 0).
      { intros j Hj.
        destruct (coord_extract x (nth j aL 0) (nth j aP 0) (nth j aR 0) (nth (n + j) aL 0) (nth (n + j) aP 0) (nth (n + j) aR 0)
          (fun i => nth j (a i) 0)) as (_ & _ & _ & _ & H); [exact Hx|exact Hd| | |exact H].
        - intros i Hi4. destruct (Heq i Hi4) as (E & _). apply (f_equal (fun l => nth j l 0)) in E.
          rewrite !nth_vadd, !nth_vscale in E by (rewrite ?vadd_length; rewrite ?vscale_length; lia).
          rewrite E. unfold A. rewrite app_nth1 by (rewrite vscale_length, Ha; done). apply nth_vscale.
        - intros i Hi4. destruct (Heq i Hi4) as (E & _). apply (f_equal (fun l => nth (n + j) l 0)) in E.
          rewrite !nth_vadd, !nth_vscale in E by (rewrite ?vadd_length; rewrite ?vscale_length; lia).
          rewrite E. unfold A. rewrite app_nth2 by (rewrite vscale_length, Ha by done; lia).
          rewrite vscale_length, Ha by done. replace (n + j - n)%nat with j by lia. apply nth_vscale. }
      assert (Cb : forall j, (j < n)%nat -> forall i, (i < 4)%nat -> nth j (b i) 0 = x i * nth (n + j) bP 0 + zinv (x i) * nth j bP 0).
      { intros j Hj.
        destruct (coord_extract x (nth (n + j) bL 0) (nth (n + j) bP 0) (nth (n + j) bR 0) (nth j bL 0) (nth j bP 0) (nth j bR 0)
          (fun i => nth j (b i) 0)) as (_ & _ & _ & _ & H); [exact Hx|exact Hd| | |exact H].
        - intros i Hi4. destruct (Heq i Hi4) as (_ & E & _). apply (f_equal (fun l => nth (n + j) l 0)) in E.
          rewrite !nth_vadd, !nth_vscale in E by (rewrite ?vadd_length; rewrite ?vscale_length; lia).
          rewrite E. unfold B. rewrite app_nth2 by (rewrite vscale_length, Hb by done; lia).
          rewrite vscale_length, Hb by done. replace (n + j - n)%nat with j by lia. apply nth_vscale.
        - intros i Hi4. destruct (Heq i Hi4) as (_ & E & _). apply (f_equal (fun l => nth j l 0)) in E.
          rewrite !nth_vadd, !nth_vscale in E by (rewrite ?vadd_length; rewrite ?vscale_length; lia).
          rewrite E. unfold B. rewrite app_nth1 by (rewrite vscale_length, Hb; done). apply nth_vscale. }
      assert (Va : forall i, (i < 4)%nat -> a i = vadd (vscale (x i) (take n aP)) (vscale (zinv (x i)) (drop n aP))).
      { intros i Hi4. assert (Hl : length (vadd (vscale (x i) (take n aP)) (vscale (zinv (x i)) (drop n aP))) = n).
        { rewrite vadd_length; rewrite !vscale_length, ?take_length, ?drop_length; lia. }
        apply list_nth_ext; [rewrite Ha, Hl; done|]. intros j Hj. rewrite Ha in Hj by done.
        rewrite nth_vadd, !nth_vscale by (rewrite !vscale_length, take_length, drop_length; lia).
        rewrite nth_take_z, nth_drop_z by done. apply Ca; done. }
      assert (Vb : forall i, (i < 4)%nat -> b i = vadd (vscale (x i) (drop n bP)) (vscale (zinv (x i)) (take n bP))).
      { intros i Hi4. assert (Hl : length (vadd (vscale (x i) (drop n bP)) (vscale (zinv (x i)) (take n bP))) = n).
        { rewrite vadd_length; rewrite !vscale_length, ?take_length, ?drop_length; lia. }
        apply list_nth_ext; [rewrite Hb, Hl; done|]. intros j Hj. rewrite Hb in Hj by done.
        rewrite nth_vadd, !nth_vscale by (rewrite !vscale_length, take_length, drop_length; lia).
        rewrite nth_take_z, nth_drop_z by done. apply Cb; done. }
      exists aP, bP. split; [done|]. split; [done|]. rewrite <- EP. f_equal.
      assert (Hc : Forall (fun c => c = 0)
        [cR - dot (drop n aP) (take n bP); cP - dot aP bP; cL - dot (take n aP) (drop n bP)]).
      { apply (poly_roots _ [x 0%nat * x 0%nat; x 1%nat * x 1%nat; x 2%nat * x 2%nat]); [done| |].
        - exact (proj1 (proj1 (NoDup_app [x 0%nat * x 0%nat; x 1%nat * x 1%nat; x 2%nat * x 2%nat] [x 3%nat * x 3%nat]) Hd)).
        - assert (Hev : forall i, (i < 4)%nat -> peval [cR - dot (drop n aP) (take n bP); cP - dot aP bP; cL - dot (take n aP) (drop n bP)] (x i * x i) = 0).
          { intros i Hi4. destruct (Heq i Hi4) as (_ & _ & E). rewrite (Va i Hi4), (Vb i Hi4) in E.
            rewrite dot_vadd_l, !dot_vadd_r in E by (rewrite !vscale_length, take_length, drop_length; lia).
            rewrite !dot_vscale_l, !dot_vscale_r in E. rewrite (dot_split n aP bP). cbn [peval].
            specialize (Hx i Hi4). revert E.
            generalize (dot (take n aP) (drop n bP)) (dot (take n aP) (take n bP)) (dot (drop n aP) (drop n bP)) (dot (drop n aP) (take n bP)).
            intros d1 d2 d3 d4 E.
            transitivity (x i * x i * (x i * x i * cL + cP + zinv (x i * x i) * cR) - (x i * x i * (x i * (x i * d1 + zinv (x i) * d2) + zinv (x i) * (x i * d3 + zinv (x i) * d4)))).
            - field. done.
            - rewrite E. ring. }
          repeat constructor; apply Hev; lia. }
      rewrite !Forall_cons in Hc. destruct Hc as (_ & Hc & _). by apply zsub_eq_0.
    Qed.
  End Round.
End Open.
