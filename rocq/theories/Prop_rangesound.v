(** Property C65: package bp, range proof (bp/range.go): what VerifyRange checks, and special soundness
    of the protocol it checks. *)
From Verif Require Import Extract Range_prover Prop_ipa Prop_ir Prop_range Toy.
Local Open Scope Zr_scope.

(** ** Specification *)
(** 1, y, ..., y^(n-1) *)
Definition powers (n : nat) (y : Zr) : list Zr := zpow y <$> seq 0 n.
(** For n values, n = length f: the weights 2^j·f_i of the 63·n bits, then x·f_i. *)
Definition bit_weights (f : list Zr) : list Zr := concat ((fun fi => (fun j => zr 2 ^ j * fi) <$> seq 0 63) <$> f).
Definition range_weights (f : list Zr) (x : Zr) : list Zr := bit_weights f ++ vscale x f.
(** The point whose opening the inner argument proves (bp/range.go:280-289), the generators of its second
    half (lines 124-134), and the constant term the verifier computes (line 153). *)
Definition range_gens {M : Grp} (Fs : list M) (y0 : Zr) : list M := gvmul (powers (length Fs) (zinv y0)) Fs.
Definition range_point {M : Grp} (F : M) (Hs Fs : list M) (f : list Zr) (x : Zr) (Q R : M) (y0 y1 z ρ : Zr) : M :=
  let nm := (length f * 63)%nat in
  gadd (gadd (gadd (gadd (gadd (gmul ρ F) Q) (gmul z R))
    (gmul y1 (gsum (take nm Hs)))) (gmul (y1 * y1) (msm (range_weights f x) (range_gens Fs y0))))
    (gmul y1 (gsum (take nm Fs))).
Definition range_const (f : list Zr) (u y0 y1 : Zr) : Zr :=
  let nm := (length f * 63)%nat in
  y1 * y1 * y1 * zsum (bit_weights f) + y1 * y1 * (u + zsum (powers nm y0)) + y1 * zsum (powers nm y0).
(** The last equation (lines 154-158). *)
Definition range_equation {M : Grp} (G H C1 C2 : M) (f : list Zr) (u y0 y1 z c τ : Zr) : Prop :=
  gadd (gadd (gmul z C1) (gmul (z * z) C2)) (gmul (range_const f u y0 y1) G) = gadd (gmul c G) (gmul τ H).

(** ** Powers and polynomials *)
Lemma powers_length n y : length (powers n y) = n.
Proof. unfold powers. rewrite fmap_length, seq_length. done. Qed.
Lemma powers_series n y : PowerSeries n y = powers n y.
Proof.
  apply list_eq. intros i. destruct (decide (i < n)%nat) as [H|H].
  - rewrite power_series_lookup by done. unfold powers. rewrite list_lookup_fmap, lookup_seq_lt by done. done.
  - rewrite !lookup_ge_None_2; [done|rewrite powers_length; lia|rewrite power_series_length; lia].
Qed.
Lemma powers_take n N y : (n <= N)%nat -> take n (powers N y) = powers n y.
Proof. intros H. unfold powers. rewrite <- fmap_take. f_equal. replace N with (n + (N - n))%nat by lia. rewrite seq_app. apply take_app_alt. rewrite seq_length. done. Qed.
Lemma dot_powers cs y : dot cs (powers (length cs) y) = peval cs y.
Proof.
  rewrite <- powers_series. unfold PowerSeries.
  assert (H : forall cs next, dot cs (power_series_loop (length cs) next y) = next * peval cs y).
  { clear cs. induction cs as [|c cs IH]; intros next; cbn [length power_series_loop dot peval]; [ring|]. rewrite IH. ring. }
  rewrite H. change (zr 1) with 1. ring.
Qed.
Lemma powers_inv n y : y <> 0 -> vmul (powers n y) (powers n (zinv y)) = ones n.
Proof.
  intros Hy. apply list_eq. intros i. unfold vmul, ones. rewrite lookup_zip_with. destruct (decide (i < n)%nat) as [H|H].
  - unfold powers. rewrite !list_lookup_fmap, lookup_seq_lt, lookup_replicate_2 by done. cbn. f_equal.
    clear H. induction i as [|i IH]; [change (1 * 1 = 1); ring|].
    change (y ^ S i) with (y * y ^ i). change (zinv y ^ S i) with (zinv y * zinv y ^ i).
    transitivity ((y * zinv y) * (y ^ i * zinv y ^ i)); [ring|]. cbn [Nat.add] in IH. rewrite IH, zinv_r by done. ring.
  - rewrite (lookup_ge_None_2 (powers n y)) by (rewrite powers_length; lia). cbn.
    rewrite lookup_ge_None_2; [done|rewrite replicate_length; lia].
Qed.
Lemma vmul_ones a n : length a = n -> vmul a (ones n) = a.
Proof. intros <-. unfold vmul, ones. induction a as [|q a IH]; [done|]. cbn. f_equal; [ring|exact IH]. Qed.
Lemma vmul_assoc a b c : vmul (vmul a b) c = vmul a (vmul b c).
Proof. unfold vmul. revert b c; induction a as [|x a IH]; intros [|y b] [|z c]; cbn; try done. f_equal; [ring|apply IH]. Qed.
Lemma vmul_comm a b : vmul a b = vmul b a.
Proof. unfold vmul. revert b; induction a as [|x a IH]; intros [|y b]; cbn; try done. f_equal; [ring|apply IH]. Qed.
Lemma vmul_vadd_l a a' b : vmul (vadd a a') b = vadd (vmul a b) (vmul a' b).
Proof. unfold vmul, vadd. revert a' b; induction a as [|x a IH]; intros [|x' a'] [|y b]; cbn; try done. f_equal; [ring|apply IH]. Qed.
Lemma vmul_vsub_l a a' b : vmul (vsub a a') b = vsub (vmul a b) (vmul a' b).
Proof. unfold vmul, vsub. revert a' b; induction a as [|x a IH]; intros [|x' a'] [|y b]; cbn; try done. f_equal; [ring|apply IH]. Qed.
Lemma vmul_vscale_l x a b : vmul (vscale x a) b = vscale x (vmul a b).
Proof. unfold vmul, vscale. revert b; induction a as [|z a IH]; intros [|y b]; cbn; try done. f_equal; [ring|apply IH]. Qed.
Lemma vsub_vadd a b n : length a = n -> length b = n -> vadd (vsub a b) b = a.
Proof.
  revert b n. induction a as [|x a IH]; intros [|y b] n Ha Hb; cbn in *; try lia; [done|]. unfold vadd, vsub in *. cbn. f_equal; [ring|].
  eapply (IH b (length a)); lia.
Qed.
Lemma vadd_comm a b : vadd a b = vadd b a.
Proof. unfold vadd. revert b; induction a as [|x a IH]; intros [|y b]; cbn; try done. f_equal; [ring|apply IH]. Qed.
Lemma vadd_assoc a b c : vadd (vadd a b) c = vadd a (vadd b c).
Proof. unfold vadd. revert b c; induction a as [|x a IH]; intros [|y b] [|z c]; cbn; try done. f_equal; [ring|apply IH]. Qed.
Lemma vsub_move a b c n : length a = n -> length b = n -> length c = n -> vsub a b = c -> a = vadd c b.
Proof. intros Ha Hb Hc <-. symmetry. eapply vsub_vadd; [exact Ha|exact Hb]. Qed.
Lemma vanishing_dot cs ys : length ys = length cs -> NoDup ys -> (forall y, y ∈ ys -> dot cs (powers (length cs) y) = 0) -> cs = zeros (length cs).
Proof.
  intros Hl Hd H. assert (Hz : Forall (fun c => c = 0) cs).
  { apply (poly_roots cs ys); [done|done|]. apply Forall_forall. intros y Hy. rewrite <- dot_powers. apply H. done. }
  clear -Hz. induction Hz as [|c cs -> _ IH]; [done|]. cbn. f_equal. exact IH.
Qed.
Lemma quad_vanishes A B Cc ys : length ys = 3%nat -> NoDup ys -> (forall y, y ∈ ys -> y * y * A + y * B + Cc = 0) -> A = 0 /\ B = 0 /\ Cc = 0.
Proof.
  intros Hl Hd H. assert (Hz : Forall (fun c => c = 0) [Cc; B; A]).
  { apply (poly_roots _ ys); [done|done|]. apply Forall_forall. intros y Hy. rewrite <- (H y Hy). cbn. ring. }
  rewrite !Forall_cons in Hz. tauto.
Qed.

(** ** Extraction, for fixed Q, R, x, f, u *)
Lemma bit_weights_length g : length (bit_weights g) = (length g * 63)%nat.
Proof.
  unfold bit_weights. induction g as [|fi g IH]; [done|]. cbn [fmap list_fmap concat length]. rewrite app_length, fmap_length, seq_length, IH. lia.
Qed.
Section Fixed.
  Context {M : Grp} (F G H : M) (Hs Fs : list M) (f : list Zr) (x u : Zr).
  Let n := length f.
  Let nm := (n * 63)%nat.
  Let N := (n * 64)%nat.
  Context (LH : length Hs = N) (LF : length Fs = N).
  Let d := range_weights f x.
  Let o (y1 : Zr) := vscale y1 (ones nm ++ zeros n).
  Let Yi (y0 : Zr) := powers N (zinv y0).
  Let Y (y0 : Zr) := powers N y0.

  Lemma Ld : length d = N.
  Proof. unfold d, range_weights. rewrite app_length, bit_weights_length, vscale_length. unfold N, n. lia. Qed.
  Lemma Lo y1 : length (o y1) = N.
  Proof. unfold o, ones, zeros. rewrite vscale_length, app_length, !replicate_length. unfold N, nm. lia. Qed.
  Lemma LY y : length (Y y) = N. Proof. apply powers_length. Qed.
  Lemma LYi y : length (Yi y) = N. Proof. apply powers_length. Qed.
  Ltac len := repeat first [match goal with E : length ?a = _ |- context [length ?a] => rewrite E end | rewrite vscale_length | rewrite Ld | rewrite Lo | rewrite LY | rewrite LYi | rewrite vadd_length by len | rewrite vsub_length by len
    | rewrite vmul_length by len]; lia.

  Lemma msm_o y1 (g : list M) : length g = N -> gmul y1 (gsum (take nm g)) = msm (o y1) g.
  Proof.
    intros Hg. unfold o. rewrite msm_vscale. f_equal. rewrite (msm_split nm).
    assert (L1 : length (ones nm) = nm) by apply replicate_length.
    rewrite take_app_alt, drop_app_alt by done. rewrite msm_zeros, gadd_0_r.
    rewrite <- (msm_ones (take nm g)). f_equal. f_equal. rewrite take_length. unfold N, nm in *. lia.
  Qed.
  Lemma msm_gens b y0 : msm b (range_gens Fs y0) = msm (vmul b (Yi y0)) Fs.
  Proof. unfold range_gens. rewrite msm_gvmul, LF. done. Qed.

  Definition zF (y0 y1 : Zr) (b : list Zr) : list Zr := vsub (vsub (vmul b (Yi y0)) (vscale (y1 * y1) (vmul d (Yi y0)))) (o y1).
  Lemma zF_length y0 y1 b : length b = N -> length (zF y0 y1 b) = N.
  Proof. intros Lb. unfold zF. len. Qed.
  Lemma point_open Q R y0 y1 z ρ a b : length a = N -> length b = N ->
    range_point F Hs Fs f x Q R y0 y1 z ρ = gadd (msm a Hs) (msm b (range_gens Fs y0)) ->
    gadd Q (gmul z R) = opening F Hs Fs (vsub a (o y1)) (zF y0 y1 b) (- ρ).
  Proof.
    intros La Lb E. unfold range_point in E. cbv zeta in E. fold n nm in E. fold d in E.
    rewrite !msm_o in E by done. rewrite !msm_gens in E.
    unfold opening, zF. rewrite !msm_vsub by len. rewrite msm_vscale.
    generalize dependent (msm (vmul b (Yi y0)) Fs). generalize (msm (vmul d (Yi y0)) Fs) (msm (o y1) Fs) (msm (o y1) Hs) (msm a Hs).
    intros P1 P2 P3 P4 P5 E.
    transitivity (gadd (gadd (gadd (gadd (gadd (gadd (gadd (gadd (gadd (gmul ρ F) Q) (gmul z R)) P3) (gmul (y1 * y1) P1)) P2)
      (gopp (gmul ρ F))) (gopp P3)) (gopp (gmul (y1 * y1) P1))) (gopp P2)); [module|]. rewrite E. module.
  Qed.

  Lemma two_points (Q R : M) z1 z2 a1 b1 c1 a2 b2 c2 : z1 <> z2 ->
    length a1 = N -> length a2 = N -> length b1 = N -> length b2 = N ->
    gadd Q (gmul z1 R) = opening F Hs Fs a1 b1 c1 -> gadd Q (gmul z2 R) = opening F Hs Fs a2 b2 c2 ->
    exists qH qF ν rH rF η, length qH = N /\ length qF = N /\ length rH = N /\ length rF = N /\
      Q = opening F Hs Fs qH qF ν /\ R = opening F Hs Fs rH rF η.
  Proof.
    intros Hz La1 La2 Lb1 Lb2 E1 E2. set (i := zinv (z1 - z2)).
    assert (Hi : i * (z1 - z2) = 1) by (apply zinv_l; intros E; apply zsub_eq_0 in E; done).
    pose (cq := fun p q : list Zr => vscale i (vsub (vscale z1 q) (vscale z2 p))).
    pose (cr := fun p q : list Zr => vscale i (vsub p q)).
    exists (cq a1 a2), (cq b1 b2), (i * (z1 * c2 - z2 * c1)), (cr a1 a2), (cr b1 b2), (i * (c1 - c2)).
    unfold cq, cr. split_and!; try len.
    - assert (EQ : Q = gadd (gmul (i * z1) (gadd Q (gmul z2 R))) (gopp (gmul (i * z2) (gadd Q (gmul z1 R))))).
      { transitivity (gmul (i * (z1 - z2)) Q); [rewrite Hi; symmetry; apply gmul_1|]. module. }
      rewrite EQ, E1, E2. unfold opening. rewrite !msm_vscale, !msm_vsub, !msm_vscale by len. module.
    - assert (ER : R = gadd (gmul i (gadd Q (gmul z1 R))) (gopp (gmul i (gadd Q (gmul z2 R))))).
      { transitivity (gmul (i * (z1 - z2)) R); [rewrite Hi; symmetry; apply gmul_1|]. module. }
      rewrite ER, E1, E2. unfold opening. rewrite !msm_vscale, !msm_vsub by len. module.
  Qed.

  (** the opening of the point is determined by those of Q and R *)
  Context (Hind : indep F Hs Fs).
  Lemma point_shape Q R qH qF ν rH rF η y0 y1 z ρ a b : y0 <> 0 ->
    length qH = N -> length qF = N -> length rH = N -> length rF = N -> length a = N -> length b = N ->
    Q = opening F Hs Fs qH qF ν -> R = opening F Hs Fs rH rF η ->
    range_point F Hs Fs f x Q R y0 y1 z ρ = gadd (msm a Hs) (msm b (range_gens Fs y0)) ->
    a = vadd (vadd qH (o y1)) (vscale z rH) /\
    b = vadd (vadd (vmul (vadd qF (o y1)) (Y y0)) (vscale (y1 * y1) d)) (vscale z (vmul rF (Y y0))).
  Proof.
    intros Hy LqH LqF LrH LrF La Lb EQ ER E. apply point_open in E; [|done..].
    assert (E' : gadd Q (gmul z R) = opening F Hs Fs (vadd qH (vscale z rH)) (vadd qF (vscale z rF)) (ν + z * η)).
    { rewrite EQ, ER. unfold opening. rewrite !msm_vadd, !msm_vscale by len. module. }
    rewrite E' in E. clear E'. apply opening_inj in E; [|exact Hind|rewrite ?LH, ?LF; unfold zF; len..].
    destruct E as (EH & EF & _). split.
    - symmetry in EH. apply (vsub_move _ _ _ N) in EH; [|len..]. rewrite EH. rewrite !vadd_assoc. f_equal. apply vadd_comm.
    - unfold zF in EF. symmetry in EF. apply (vsub_move _ _ _ N) in EF; [|len..].
      apply (vsub_move _ _ _ N) in EF; [|len..].
      assert (Eb : b = vmul (vmul b (Yi y0)) (Y y0)).
      { rewrite vmul_assoc, (vmul_comm (Yi y0)). unfold Y, Yi. rewrite powers_inv by done. symmetry. apply vmul_ones. done. }
      rewrite Eb, EF. rewrite !vmul_vadd_l, !vmul_vscale_l.
      assert (Ed : vmul (vmul d (Yi y0)) (Y y0) = d).
      { rewrite vmul_assoc, (vmul_comm (Yi y0)). unfold Y, Yi. rewrite powers_inv by done. apply vmul_ones. apply Ld. }
      rewrite Ed. rewrite !vadd_assoc. f_equal.
      rewrite vadd_comm, !vadd_assoc. f_equal.
  Qed.

  (** The honest prover's side: from openings of Q and R. *)
  Lemma honest_point Q R qH qF ν rH rF η y0 y1 z : y0 <> 0 ->
    length qH = N -> length qF = N -> length rH = N -> length rF = N ->
    Q = opening F Hs Fs qH qF ν -> R = opening F Hs Fs rH rF η ->
    range_point F Hs Fs f x Q R y0 y1 z (- (ν + z * η)) =
    gadd (msm (vadd (vadd qH (o y1)) (vscale z rH)) Hs)
      (msm (vadd (vadd (vmul (vadd qF (o y1)) (Y y0)) (vscale (y1 * y1) d)) (vscale z (vmul rF (Y y0)))) (range_gens Fs y0)).
  Proof.
    intros Hy LqH LqF LrH LrF EQ ER. unfold range_point. cbv zeta. fold n nm. fold d.
    rewrite !msm_o by done. rewrite !msm_gens.
    rewrite !vmul_vadd_l, !vmul_vscale_l.
    assert (EY : forall a, length a = N -> vmul (vmul a (Y y0)) (Yi y0) = a).
    { intros a La. rewrite vmul_assoc. unfold Y, Yi. rewrite powers_inv by done. apply vmul_ones. done. }
    rewrite !EY by first [assumption|apply Lo].
    rewrite !msm_vadd, !msm_vscale by len. rewrite EQ, ER. unfold opening. module.
  Qed.

  (** ** The inner product as a polynomial in y1 and z *)
  Lemma LYnm y : take nm (Y y) = powers nm y.
  Proof. unfold Y. apply powers_take. unfold nm, N. lia. Qed.
  Lemma vmul_o y1 y0 : vmul (o y1) (Y y0) = vscale y1 (powers nm y0 ++ zeros n).
  Proof.
    unfold o. rewrite vmul_vscale_l. f_equal. rewrite <- (take_drop nm (Y y0)). rewrite LYnm. unfold vmul.
    rewrite zip_with_app by (rewrite powers_length; apply replicate_length). f_equal.
    - change (vmul (ones nm) (powers nm y0) = powers nm y0). rewrite vmul_comm. apply vmul_ones. apply powers_length.
    - assert (LD : length (drop nm (Y y0)) = n) by (rewrite drop_length, LY; unfold N, nm; lia).
      revert LD. generalize (drop nm (Y y0)) n. clear. intros l k. revert l. induction k as [|k IH]; intros [|y l] Hl; cbn in *; try lia; [done|].
      apply f_equal2; [ring|apply IH; lia].
  Qed.
  Lemma dot_pad (a b : list Zr) : length a = N -> length b = nm -> dot a (b ++ zeros n) = dot (take nm a) b.
  Proof.
    intros La Lb. rewrite <- (take_drop nm a) at 1. rewrite dot_app by (rewrite take_length, Lb; unfold N, nm in *; lia).
    rewrite dot_zeros_r. ring.
  Qed.
  Lemma dot_pad1 (a : list Zr) : length a = N -> dot (ones nm ++ zeros n) a = zsum (take nm a).
  Proof.
    intros La. assert (Lt : length (take nm a) = nm) by (rewrite take_length, La; unfold N, nm; lia).
    rewrite dot_comm, dot_pad by (done || apply replicate_length).
    rewrite dot_comm. rewrite <- Lt at 1. apply dot_ones_l.
  Qed.
  Lemma take_d : take nm d = bit_weights f.
  Proof. unfold d, range_weights. apply take_app_alt. rewrite bit_weights_length. done. Qed.
  Lemma zsum_take_o y1 : zsum (take nm (powers nm y1)) = zsum (powers nm y1).
  Proof. rewrite take_ge; [done|]. rewrite powers_length. lia. Qed.

  Lemma const_term qH qF y0 y1 : length qH = N -> length qF = N ->
    dot (vadd qH (o y1)) (vadd (vmul (vadd qF (o y1)) (Y y0)) (vscale (y1 * y1) d)) =
    range_const f u y0 y1 + (y1 * y1 * (dot qH d - u) +
      y1 * (dot (vsub (vadd (take nm qH) (take nm qF)) (ones nm)) (powers nm y0)) + dot (vmul qH qF) (Y y0)).
  Proof.
    intros LqH LqF. rewrite vmul_vadd_l, vmul_o.
    assert (LpN : length (powers nm y0 ++ zeros n) = N) by (rewrite app_length, powers_length; unfold zeros; rewrite replicate_length; unfold N, nm; lia).
    assert (LtH : length (take nm qH) = nm) by (rewrite take_length, LqH; unfold N, nm; lia).
    assert (LtF : length (take nm qF) = nm) by (rewrite take_length, LqF; unfold N, nm; lia).
    assert (L1 : length (ones nm) = nm) by apply replicate_length.
    rewrite dot_vadd_l by len. rewrite !dot_vadd_r by len.
    rewrite !dot_vscale_r. unfold o at 1 2 3. rewrite !dot_vscale_l.
    rewrite dot_pad by (done || apply powers_length).
    rewrite !dot_pad1 by (done || len).
    rewrite take_d. rewrite take_app_alt by (rewrite powers_length; done).
    rewrite <- dot_vmul.
    assert (E1 : take nm (vmul qF (Y y0)) = vmul (take nm qF) (powers nm y0)).
    { rewrite <- LYnm. unfold vmul. generalize qF (Y y0) nm. clear. intros a b k. revert a b. induction k as [|k IH]; intros [|p a] [|q b]; cbn; try done. f_equal. apply IH. }
    rewrite E1. rewrite dot_vsub_l, dot_vadd_l by (rewrite ?vadd_length; lia).
    assert (E2 : zsum (vmul (take nm qF) (powers nm y0)) = dot (take nm qF) (powers nm y0)).
    { clear. generalize (take nm qF) (powers nm y0). intros a b. unfold vmul. revert b. induction a as [|p a IH]; intros [|q b]; cbn; try done. rewrite IH. done. }
    assert (E3 : dot (ones nm) (powers nm y0) = zsum (powers nm y0)).
    { rewrite <- (powers_length nm y0) at 1. apply dot_ones_l. }
    rewrite E2, E3. unfold range_const. cbv zeta. fold n nm. ring.
  Qed.

  Lemma three_z (C1 C2 : M) k t0 t1 t2 zs : indep1 [G; H] -> length zs = 3%nat -> NoDup zs ->
    (forall z, z ∈ zs -> exists τ, gadd (gadd (gmul z C1) (gmul (z * z) C2)) (gmul k G) = gadd (gmul (t0 + z * t1 + z * z * t2) G) (gmul τ H)) ->
    t0 = k.
  Proof.
    intros Hi Hl Hd Hz. destruct zs as [|z1 [|z2 [|z3 [|]]]]; try (cbn in Hl; lia).
    destruct (Hz z1) as [τ1 E1]; [set_solver|]. destruct (Hz z2) as [τ2 E2]; [set_solver|]. destruct (Hz z3) as [τ3 E3]; [set_solver|].
    rewrite !NoDup_cons, !elem_of_cons in Hd. destruct Hd as (D1 & D2 & _).
    assert (N12 : z1 - z2 <> 0) by (intros E; apply zsub_eq_0 in E; tauto).
    assert (N13 : z1 - z3 <> 0) by (intros E; apply zsub_eq_0 in E; tauto).
    assert (N23 : z2 - z3 <> 0) by (intros E; apply zsub_eq_0 in E; tauto).
    set (l1 := z2 * z3 * zinv ((z1 - z2) * (z1 - z3))). set (l2 := - (z1 * z3 * zinv ((z1 - z2) * (z2 - z3)))).
    set (l3 := z1 * z2 * zinv ((z1 - z3) * (z2 - z3))).
    assert (S0 : l1 + l2 + l3 = 1) by (unfold l1, l2, l3; field; split_and!; done).
    assert (S1 : l1 * z1 + l2 * z2 + l3 * z3 = 0) by (unfold l1, l2, l3; field; split_and!; done).
    assert (S2 : l1 * (z1 * z1) + l2 * (z2 * z2) + l3 * (z3 * z3) = 0) by (unfold l1, l2, l3; field; split_and!; done).
    clearbody l1 l2 l3.
    assert (E : msm [t0 - k; l1 * τ1 + l2 * τ2 + l3 * τ3] [G; H] = gzero).
    { assert (EL : gadd (gadd (gmul l1 (gadd (gadd (gmul z1 C1) (gmul (z1 * z1) C2)) (gmul k G))) (gmul l2 (gadd (gadd (gmul z2 C1) (gmul (z2 * z2) C2)) (gmul k G))))
        (gmul l3 (gadd (gadd (gmul z3 C1) (gmul (z3 * z3) C2)) (gmul k G))) = gmul k G).
      { transitivity (gadd (gadd (gmul (l1 * z1 + l2 * z2 + l3 * z3) C1) (gmul (l1 * (z1 * z1) + l2 * (z2 * z2) + l3 * (z3 * z3)) C2)) (gmul ((l1 + l2 + l3) * k) G)); [module|].
        rewrite S0, S1, S2. module. }
      rewrite E1, E2, E3 in EL.
      assert (ER : gadd (gadd (gmul l1 (gadd (gmul (t0 + z1 * t1 + z1 * z1 * t2) G) (gmul τ1 H))) (gmul l2 (gadd (gmul (t0 + z2 * t1 + z2 * z2 * t2) G) (gmul τ2 H))))
        (gmul l3 (gadd (gmul (t0 + z3 * t1 + z3 * z3 * t2) G) (gmul τ3 H))) = gadd (gmul t0 G) (gmul (l1 * τ1 + l2 * τ2 + l3 * τ3) H)).
      { transitivity (gadd (gmul ((l1 + l2 + l3) * t0 + (l1 * z1 + l2 * z2 + l3 * z3) * t1 + (l1 * (z1 * z1) + l2 * (z2 * z2) + l3 * (z3 * z3)) * t2) G) (gmul (l1 * τ1 + l2 * τ2 + l3 * τ3) H)); [module|].
        rewrite S0, S1, S2. module. }
      rewrite ER in EL. cbn [msm]. transitivity (gadd (gadd (gmul t0 G) (gmul (l1 * τ1 + l2 * τ2 + l3 * τ3) H)) (gopp (gmul k G))); [module|]. rewrite EL. module. }
    apply Hi in E; [|done]. apply cons_inv in E. destruct E as [E _]. apply zsub_eq_0. exact E.
  Qed.
End Fixed.

(** ** Conversations *)
(** The prover's answer to the last challenge z: an opening of the point (proved by the inner argument) and
    the two scalars of the last equation. *)
Definition range_answer {M : Grp} (F G H : M) (Hs Fs : list M) (f : list Zr) (x u : Zr) (Q R C1 C2 : M) (y0 y1 z : Zr) : Prop :=
  exists ρ τ c a b, length a = length Hs /\ length b = length Fs /\
    range_point F Hs Fs f x Q R y0 y1 z ρ = gadd (msm a Hs) (msm b (range_gens Fs y0)) /\ c = dot a b /\
    range_equation G H C1 C2 f u y0 y1 z c τ.
(** Answers to 64·n challenges y0, three challenges y1 for each, and three challenges z for each of
    these.  R is sent before y0 and y1; C1 and C2 are sent before z. *)
Definition range_answers_with {M : Grp} (answer : M -> M -> M -> Zr -> Zr -> Zr -> Prop) (n : nat) : Prop :=
  exists R y0s, length y0s = (n * 64)%nat /\ NoDup y0s /\ 0 ∉ y0s /\ forall y0, y0 ∈ y0s ->
  exists y1s, length y1s = 3%nat /\ NoDup y1s /\ forall y1, y1 ∈ y1s ->
  exists C1 C2 zs, length zs = 3%nat /\ NoDup zs /\ forall z, z ∈ zs -> answer R C1 C2 y0 y1 z.
Definition range_answers {M : Grp} (F G H : M) (Hs Fs : list M) (f : list Zr) (x u : Zr) (Q : M) : Prop :=
  range_answers_with (range_answer F G H Hs Fs f x u Q) (length f).

Lemma fixed_extract {M : Grp} (F G H : M) Hs Fs f x u Q :
  length Hs = (length f * 64)%nat -> length Fs = (length f * 64)%nat -> f <> [] ->
  indep F Hs Fs -> indep1 [G; H] -> range_answers F G H Hs Fs f x u Q ->
  exists qH qF ν, length qH = (length f * 64)%nat /\ length qF = (length f * 64)%nat /\ Q = opening F Hs Fs qH qF ν /\
    dot qH (range_weights f x) = u /\ Forall (fun b => b = 0 \/ b = 1) (take (length f * 63) qH).
Proof.
  intros LH LF Hf Hind HGH (R & y0s & Ly0 & Dy0 & Zy0 & Hy0).
  assert (Hn : (0 < length f)%nat) by (destruct f; [done|cbn; lia]).
  (* openings of Q and R *)
  assert (HQR : exists qH qF ν rH rF η, length qH = (length f * 64)%nat /\ length qF = (length f * 64)%nat /\
    length rH = (length f * 64)%nat /\ length rF = (length f * 64)%nat /\ Q = opening F Hs Fs qH qF ν /\ R = opening F Hs Fs rH rF η).
  { destruct y0s as [|y0 y0s]; [cbn in Ly0; lia|]. destruct (Hy0 y0) as (y1s & Ly1 & Dy1 & Hy1); [set_solver|].
    destruct y1s as [|y1 y1s]; [cbn in Ly1; lia|]. destruct (Hy1 y1) as (C1 & C2 & zs & Lz & Dz & Hz); [set_solver|].
    destruct zs as [|z1 [|z2 zs]]; try (cbn in Lz; lia).
    destruct (Hz z1) as (ρ1 & τ1 & c1 & a1 & b1 & La1 & Lb1 & E1 & _); [set_solver|].
    destruct (Hz z2) as (ρ2 & τ2 & c2 & a2 & b2 & La2 & Lb2 & E2 & _); [set_solver|].
    apply (point_open F Hs Fs f x u LH LF) in E1; [|lia..]. apply (point_open F Hs Fs f x u LH LF) in E2; [|lia..].
    assert (Hz12 : z1 <> z2) by (apply NoDup_cons in Dz; destruct Dz as [Dz _]; set_solver).
    assert (LzF : forall y0 y1 b, length b = (length f * 64)%nat -> length (zF f x y0 y1 b) = (length f * 64)%nat).
    { intros p q b Lb. apply (zF_length Hs Fs f x u LH LF). done. }
    assert (Lva : forall a y1, length a = (length f * 64)%nat -> length (vsub a (vscale y1 (ones (length f * 63) ++ zeros (length f)))) = (length f * 64)%nat).
    { intros a q La. rewrite vsub_length; [done|]. rewrite La. symmetry. apply (Lo Hs Fs f LH LF). }
    eapply (two_points F Hs Fs f LH LF Q R z1 z2); [exact Hz12| | | | |exact E1|exact E2]; first [apply Lva; lia|apply LzF; lia]. }
  destruct HQR as (qH & qF & ν & rH & rF & η & LqH & LqF & LrH & LrF & EQ & ER).
  exists qH, qF, ν. split; [done|]. split; [done|]. split; [done|].
  (* the constant term vanishes *)
  assert (HT : forall y0, y0 ∈ y0s -> dot qH (range_weights f x) - u = 0 /\
    dot (vsub (vadd (take (length f * 63) qH) (take (length f * 63) qF)) (ones (length f * 63))) (powers (length f * 63) y0) = 0 /\
    dot (vmul qH qF) (powers (length f * 64) y0) = 0).
  { intros y0 Hin. destruct (Hy0 y0 Hin) as (y1s & Ly1 & Dy1 & Hy1). assert (Hy : y0 <> 0) by (intros ->; contradiction).
    apply (quad_vanishes _ _ _ y1s); [done|done|]. intros y1 Hin1. destruct (Hy1 y1 Hin1) as (C1 & C2 & zs & Lz & Dz & Hz).
    pose (a0 := vadd qH (vscale y1 (ones (length f * 63) ++ zeros (length f)))).
    pose (b0 := vadd (vmul (vadd qF (vscale y1 (ones (length f * 63) ++ zeros (length f)))) (powers (length f * 64) y0)) (vscale (y1 * y1) (range_weights f x))).
    pose (b1 := vmul rF (powers (length f * 64) y0)).
    assert (La0 : length a0 = (length f * 64)%nat).
    { unfold a0. rewrite vadd_length; [done|]. rewrite LqH. symmetry. apply (Lo Hs Fs f LH LF). }
    assert (Lb1 : length b1 = (length f * 64)%nat).
    { unfold b1. rewrite vmul_length; [done|]. rewrite powers_length. done. }
    assert (LqFo : length (vadd qF (vscale y1 (ones (length f * 63) ++ zeros (length f)))) = (length f * 64)%nat).
    { rewrite vadd_length; [done|]. rewrite LqF. symmetry. apply (Lo Hs Fs f LH LF). }
    assert (Lb0 : length b0 = (length f * 64)%nat).
    { unfold b0. rewrite vadd_length; rewrite vmul_length; rewrite ?vscale_length, ?powers_length; rewrite ?LqFo; try done. symmetry. apply (Ld Hs Fs f x u LH LF). }
    assert (E : dot a0 b0 = range_const f u y0 y1).
    { apply (three_z F G H Hs Fs f x LH LF Hind C1 C2 (range_const f u y0 y1) (dot a0 b0) (dot rH b0 + dot a0 b1) (dot rH b1) zs HGH Lz Dz). 
      intros z Hinz. destruct (Hz z Hinz) as (ρ & τ & c & a & b & La & Lb & Ep & Ec & Eq). exists τ.
      destruct (point_shape F Hs Fs f x u LH LF Hind Q R qH qF ν rH rF η y0 y1 z ρ a b) as [Ea Eb]; try done; [lia..|].
      unfold range_equation in Eq. rewrite Eq. f_equal. f_equal. rewrite Ec, Ea, Eb.
      change (dot (vadd a0 (vscale z rH)) (vadd b0 (vscale z b1)) = dot a0 b0 + z * (dot rH b0 + dot a0 b1) + z * z * dot rH b1).
      rewrite dot_vadd_l by (rewrite vscale_length; lia). rewrite !dot_vadd_r by (rewrite vscale_length; lia).
      rewrite !dot_vscale_l, !dot_vscale_r. ring. }
    pose proof (const_term Hs Fs f x u LH LF qH qF y0 y1 LqH LqF) as ET. cbv zeta in ET.
    change (dot a0 b0 = range_const f u y0 y1 + (y1 * y1 * (dot qH (range_weights f x) - u) +
      y1 * (dot (vsub (vadd (take (length f * 63) qH) (take (length f * 63) qF)) (ones (length f * 63))) (powers (length f * 63) y0)) + dot (vmul qH qF) (powers (length f * 64) y0))) in ET.
    rewrite E in ET. revert ET. generalize (range_const f u y0 y1). intros k ET.
    match goal with |- ?t = 0 => match type of ET with _ = k + ?s => change s with t in ET; revert ET; generalize t end end. intros t ET.
    transitivity (k + t - k); [ring|]. rewrite <- ET. ring. }
  assert (Hmul : vmul qH qF = zeros (length f * 64)).
  { assert (Lm : length (vmul qH qF) = (length f * 64)%nat) by (rewrite vmul_length; lia).
    rewrite <- Lm. apply (vanishing_dot _ y0s); [lia|done|]. rewrite Lm. intros y0 Hin. apply (HT y0 Hin). }
  assert (LtH : length (take (length f * 63) qH) = (length f * 63)%nat) by (rewrite take_length; lia).
  assert (LtF : length (take (length f * 63) qF) = (length f * 63)%nat) by (rewrite take_length; lia).
  assert (Hadd : vsub (vadd (take (length f * 63) qH) (take (length f * 63) qF)) (ones (length f * 63)) = zeros (length f * 63)).
  { set (v := vsub _ _). assert (Lv : length v = (length f * 63)%nat).
    { unfold v. rewrite vsub_length; rewrite vadd_length; try lia. unfold ones. rewrite replicate_length. lia. }
    rewrite <- Lv. apply (vanishing_dot _ (take (length f * 63) y0s)); [rewrite take_length; lia| |].
    - pose proof Dy0 as Dt. rewrite <- (take_drop (length f * 63) y0s) in Dt. apply NoDup_app in Dt. apply Dt.
    - rewrite Lv. intros y0 Hin. apply (HT y0). rewrite <- (take_drop (length f * 63) y0s). apply elem_of_app. by left. }
  split.
  - destruct y0s as [|y0 y0s]; [cbn in Ly0; lia|]. apply zsub_eq_0. apply (HT y0). set_solver.
  - apply Forall_lookup. intros i b Hb. pose proof (lookup_lt_Some _ _ _ Hb) as Hi.
    destruct (lookup_lt_is_Some_2 (take (length f * 63) qF) i) as [b' Hb']; [lia|].
    apply (f_equal (fun l => l !! i)) in Hadd. unfold vsub, vadd, ones, zeros in Hadd. rewrite !lookup_zip_with in Hadd. rewrite Hb, Hb' in Hadd. cbn in Hadd.
    rewrite !lookup_replicate_2 in Hadd by lia. cbn in Hadd. apply (inj Some) in Hadd.
    rewrite lookup_take in Hb by lia. rewrite lookup_take in Hb' by lia.
    apply (f_equal (fun l => l !! i)) in Hmul. unfold vmul, zeros in Hmul. rewrite lookup_zip_with, Hb, Hb' in Hmul. cbn in Hmul.
    rewrite lookup_replicate_2 in Hmul by lia. apply (inj Some) in Hmul.
    apply zmul_eq_0 in Hmul. destruct Hmul as [->| ->]; [by left|]. right.
    apply zsub_eq_0. rewrite <- Hadd. ring.
Qed.

(** ** Bits and values *)
Lemma bits_value k : forall l, length l = (k * 63)%nat -> Forall (fun b => b = 0 \/ b = 1) l ->
  exists v, length v = k /\ Forall in_range v /\ forall g, length g = k -> dot l (bit_weights g) = dot v g.
Proof.
  induction k as [|k IH]; intros l Hl Hb.
  - exists []. split; [done|]. split; [constructor|]. intros [|] Hg; [|cbn in Hg; lia]. destruct l; [done|cbn in Hl; lia].
  - rewrite <- (take_drop 63 l) in Hb. apply Forall_app in Hb. destruct Hb as [Hb1 Hb2].
    destruct (IH (drop 63 l)) as (v & Lv & Rv & Dv); [rewrite drop_length; lia|done|].
    assert (L1 : length (take 63 l) = 63%nat) by (rewrite take_length; lia).
    assert (Hz : exists b, zbits b /\ take 63 l = zr <$> b).
    { clear -Hb1. induction (take 63 l) as [|x t IH]; [exists []; split; [constructor|done]|].
      apply Forall_cons in Hb1. destruct Hb1 as [Hx Ht]. destruct (IH Ht) as (b & Zb & ->).
      destruct Hx as [-> | ->]; [exists (0%Z :: b)|exists (1%Z :: b)]; (split; [apply Forall_cons; split; [|done]; auto|done]). }
    destruct Hz as (b & Zb & Eb). assert (Lb : length b = 63%nat) by (rewrite <- L1, Eb, fmap_length; done).
    exists (zr (bits_val b) :: v). split; [cbn; lia|].
    assert (Hbv : (0 <= bits_val b < 2 ^ 63)%Z) by (pose proof (bits_val_bound b Zb) as Hbb; rewrite Lb in Hbb; exact Hbb).
    split; [apply Forall_cons; split; [|done]; apply small_in_range; exact Hbv|].
    intros [|g0 g] Hg; [cbn in Hg; lia|]. unfold bit_weights. cbn [fmap list_fmap concat]. fold (bit_weights g).
    rewrite <- (take_drop 63 l) at 1. rewrite dot_app by (rewrite L1, fmap_length, seq_length; done).
    rewrite Dv by (cbn in Hg; lia). rewrite Eb. rewrite <- Lb at 1. rewrite zr_bits_dot by done.
    change (zpow (zr 2) 0) with 1. cbn [dot]. ring.
Qed.
Lemma itree_has_path {M : Grp} k : forall (Gs : list M) V t, itree_accepts k Gs V t -> exists xs u, itree_path t xs u.
Proof.
  induction k as [|k IH]; intros Gs V t Ha; destruct t as [u|A B x1 t1 x2 t2 x3 t3 x4 t4]; try done; [by exists [], u|].
  cbn [itree_accepts] in Ha. destruct Ha as (_ & (_ & H1) & _). destruct (IH _ _ _ H1) as (xs & u & Hp).
  exists (x1 :: xs), u. left. done.
Qed.
Lemma itree_vanish {M : Grp} k : forall (Gs : list M) V t e, itree_accepts k Gs V t -> length e = (2 ^ k)%nat ->
  (forall xs u, itree_path t xs u -> dot e (vco xs) = 0) -> e = zeros (2 ^ k).
Proof.
  induction k as [|k IH]; intros Gs V t e Ha He Hp; destruct t as [u|A B x1 t1 x2 t2 x3 t3 x4 t4]; try done.
  - specialize (Hp [] u eq_refl). destruct e as [|e0 [|]]; try (cbn in He; lia). cbn in Hp.
    unfold zeros. cbn. f_equal. transitivity (e0 * 1 + 0); [ring|exact Hp].
  - pose proof Ha as Ha0. cbn [itree_accepts] in Ha. destruct Ha as (Hd & (_ & H1) & (_ & H2) & _).
    set (n := (2 ^ k)%nat) in *. assert (Hn : (2 ^ S k = n + n)%nat) by (unfold n; cbn; lia). rewrite Hn in *.
    assert (F1 : foldv x1 n e = zeros n).
    { apply (IH _ _ t1 _ H1); [apply foldv_length; done|]. intros xs u Hx. pose proof (itree_path_length k _ _ t1 xs u H1 Hx) as L.
      unfold n. rewrite <- L. rewrite dot_foldv by (rewrite L, Hn; done). apply (Hp (x1 :: xs) u). left. done. }
    assert (F2 : foldv x2 n e = zeros n).
    { apply (IH _ _ t2 _ H2); [apply foldv_length; done|]. intros xs u Hx. pose proof (itree_path_length k _ _ t2 xs u H2 Hx) as L.
      unfold n. rewrite <- L. rewrite dot_foldv by (rewrite L, Hn; done). apply (Hp (x2 :: xs) u). right. left. done. }
    assert (Hx : x1 <> x2) by (apply NoDup_cons in Hd; destruct Hd as [Hd _]; set_solver).
    assert (L1 : length (take n e) = n) by (rewrite take_length; lia).
    assert (L2 : length (drop n e) = n) by (rewrite drop_length; lia).
    assert (Hi : forall i, (i < n)%nat -> take n e !! i = Some 0 /\ drop n e !! i = Some 0).
    { intros i Hi. destruct (lookup_lt_is_Some_2 (take n e) i) as [p Ep]; [lia|]. destruct (lookup_lt_is_Some_2 (drop n e) i) as [q Eq]; [lia|].
      apply (f_equal (fun l => l !! i)) in F1, F2. unfold foldv, vadd, vscale, zeros in F1, F2.
      rewrite lookup_zip_with, list_lookup_fmap, Ep, Eq, lookup_replicate_2 in F1, F2 by done. cbn in F1, F2.
      apply (inj Some) in F1, F2.
      assert (E : (x1 - x2) * q = 0). { transitivity ((p + x1 * q) - (p + x2 * q)); [ring|]. rewrite F1, F2. ring. }
      apply zmul_eq_0 in E. destruct E as [E|E]; [apply zsub_eq_0 in E; done|]. subst q.
      assert (p = 0) as ->. { transitivity (p + x1 * 0); [ring|exact F1]. } rewrite Ep, Eq. done. }
    rewrite <- (take_drop n e). unfold zeros. rewrite replicate_add.
    f_equal; apply list_eq; intros i; (destruct (decide (i < n)%nat) as [H|H]; [rewrite lookup_replicate_2 by done; apply Hi; done|rewrite !lookup_ge_None_2; [done|rewrite replicate_length; lia|lia]]).
Qed.
Lemma opening_unique {M : Grp} (F : M) Hs Fs a b c a' b' c' : indep F Hs Fs ->
  length a = length Hs -> length a' = length Hs -> length b = length Fs -> length b' = length Fs ->
  opening F Hs Fs a b c = opening F Hs Fs a' b' c' -> a = a'.
Proof. intros Hi La La' Lb Lb' E. destruct (opening_inj F Hs Fs a b c a' b' c') as (E1 & _); done. Qed.

Lemma opened_extract {M : Grp} k (F G H : M) Gs Hs Fs V W Q x1 x2 γ1 γ2 t1 t2 :
  length Gs = (2 ^ k)%nat -> length Hs = (2 ^ k * 64)%nat -> length Fs = (2 ^ k * 64)%nat ->
  indep1 Gs -> indep F Hs Fs -> indep1 [G; H] -> x1 <> x2 ->
  itree_accepts k Gs (gadd (gadd (gmul γ1 F) V) (gmul x1 W)) t1 ->
  itree_accepts k Gs (gadd (gadd (gmul γ2 F) V) (gmul x2 W)) t2 ->
  (forall xs u, itree_path t1 xs u -> range_answers F G H Hs Fs (bitprod (reverse xs) <$> seq 0 (2 ^ k)) x1 u Q) ->
  (forall xs u, itree_path t2 xs u -> range_answers F G H Hs Fs (bitprod (reverse xs) <$> seq 0 (2 ^ k)) x2 u Q) ->
  exists r v, length v = (2 ^ k)%nat /\ V = gadd (gmul r F) (msm v Gs) /\ Forall in_range v.
Proof.
  intros LG LH LF HiG Hi HiGH Hx T1 T2 A1 A2. pose proof (Nat.pow_nonzero 2 k ltac:(lia)) as Hn.
  assert (Lf : forall xs, length (bitprod (reverse xs) <$> seq 0 (2 ^ k)) = (2 ^ k)%nat) by (intros xs; rewrite fmap_length, seq_length; done).
  assert (Hf : forall xs, bitprod (reverse xs) <$> seq 0 (2 ^ k) <> []) by (intros xs E; pose proof (Lf xs) as L; rewrite E in L; cbn in L; lia).
  (* one opening of Q *)
  assert (HQ : exists qH qF ν, length qH = (2 ^ k * 64)%nat /\ length qF = (2 ^ k * 64)%nat /\ Q = opening F Hs Fs qH qF ν /\
    Forall (fun b => b = 0 \/ b = 1) (take (2 ^ k * 63) qH)).
  { destruct (itree_has_path k _ _ _ T1) as (xs & u & Hp). specialize (A1 xs u Hp). pose proof (Hf xs) as Hf'. pose proof (Lf xs) as Lf'.
    destruct (fixed_extract F G H Hs Fs (bitprod (reverse xs) <$> seq 0 (2 ^ k)) x1 u Q) with (6 := A1) as (qH & qF & ν & L1 & L2 & E & _ & Hb); rewrite ?Lf'; try done.
    rewrite Lf' in *. exists qH, qF, ν. done. }
  destruct HQ as (qH & qF & ν & LqH & LqF & EQ & Hbits).
  assert (HU : forall x u xs, range_answers F G H Hs Fs (bitprod (reverse xs) <$> seq 0 (2 ^ k)) x u Q ->
    dot qH (range_weights (bitprod (reverse xs) <$> seq 0 (2 ^ k)) x) = u).
  { intros x u xs A. pose proof (Hf xs) as Hf'. pose proof (Lf xs) as Lf'.
    destruct (fixed_extract F G H Hs Fs (bitprod (reverse xs) <$> seq 0 (2 ^ k)) x u Q) with (6 := A) as (qH' & qF' & ν' & L1 & L2 & E & Hd & _); rewrite ?Lf'; try done.
    rewrite Lf' in *. rewrite EQ in E. apply opening_unique in E; [|first [done|lia]..]. subst qH'. done. }
  assert (Ltk : length (take (2 ^ k * 63) qH) = (2 ^ k * 63)%nat) by (rewrite take_length; lia).
  destruct (bits_value (2 ^ k) (take (2 ^ k * 63) qH)) as (v & Lv & Rv & Dv); [done|done|].
  pose (w := drop (2 ^ k * 63) qH). assert (Lw : length w = (2 ^ k)%nat) by (unfold w; rewrite drop_length; lia).
  assert (Hv : forall x γ t, itree_accepts k Gs (gadd (gadd (gmul γ F) V) (gmul x W)) t ->
    (forall xs u, itree_path t xs u -> range_answers F G H Hs Fs (bitprod (reverse xs) <$> seq 0 (2 ^ k)) x u Q) ->
    gadd (gadd (gmul γ F) V) (gmul x W) = gadd (msm v Gs) (gmul x (msm w Gs))).
  { intros x γ t T A. destruct (C20_special_soundness M k Gs _ t LG HiG T) as (s & Ls & Es & Us). rewrite Es.
    assert (Lvw : length (vadd v (vscale x w)) = (2 ^ k)%nat) by (rewrite vadd_length; rewrite ?vscale_length; lia).
    assert (E : s = vadd v (vscale x w)).
    { apply (vsub_zeros _ _ (2 ^ k)); [done|done|].
      apply (itree_vanish k Gs _ t _ T); [rewrite vsub_length; lia|]. intros xs u Hp.
      rewrite vco_bitprod, (itree_path_length k _ _ t xs u T Hp). rewrite dot_vsub_l by lia.
      rewrite <- (Us xs u Hp). rewrite <- (HU x u xs (A xs u Hp)). unfold range_weights.
      assert (Lbw : length (bit_weights (bitprod (reverse xs) <$> seq 0 (2 ^ k))) = (2 ^ k * 63)%nat) by (rewrite bit_weights_length, Lf; done).
      rewrite <- (take_drop (2 ^ k * 63) qH) at 1. rewrite dot_app by (rewrite Ltk, Lbw; done). fold w.
      rewrite Dv by apply Lf. rewrite dot_vadd_l by (rewrite vscale_length; lia). rewrite dot_vscale_l, dot_vscale_r. ring. }
    rewrite E. rewrite msm_vadd by (rewrite vscale_length; lia). rewrite msm_vscale. done. }
  pose proof (Hv x1 γ1 t1 T1 A1) as E1. pose proof (Hv x2 γ2 t2 T2 A2) as E2.
  exists (zinv (x2 - x1) * (x1 * γ2 - x2 * γ1)), v. split; [done|]. split; [|done].
  assert (Hd : x2 - x1 <> 0) by (intros E; apply zsub_eq_0 in E; congruence).
  assert (E : gmul (x2 - x1) V = gadd (gmul (x1 * γ2 - x2 * γ1) F) (gmul (x2 - x1) (msm v Gs))).
  { assert (E : gadd (gmul x2 (gadd (gadd (gmul γ1 F) V) (gmul x1 W))) (gopp (gmul x1 (gadd (gadd (gmul γ2 F) V) (gmul x2 W)))) =
      gadd (gmul x2 (gadd (msm v Gs) (gmul x1 (msm w Gs)))) (gopp (gmul x1 (gadd (msm v Gs) (gmul x2 (msm w Gs)))))) by (rewrite E1, E2; done).
    transitivity (gadd (gadd (gmul x2 (gadd (gadd (gmul γ1 F) V) (gmul x1 W))) (gopp (gmul x1 (gadd (gadd (gmul γ2 F) V) (gmul x2 W)))))
      (gmul (x1 * γ2 - x2 * γ1) F)); [module|]. rewrite E. module. }
  rewrite <- (gmul_1 _ V). rewrite <- (zinv_l (x2 - x1)) by done. rewrite gmul_mul, E.
  rewrite gmul_add_r, <- !gmul_mul. rewrite (zinv_l (x2 - x1)) by done. rewrite gmul_1. done.
Qed.

(** ** The theorem *)
(** The prover's answer to z, with the inner argument spelt out: two different first challenges of the
    inner argument and an accepting tree for each (C16). *)
Definition range_answer_trees {M : Grp} (k : nat) (U F G H : M) (Hs Fs : list M) (f : list Zr) (x u : Zr) (Q R C1 C2 : M) (y0 y1 z : Zr) : Prop :=
  exists ρ τ c s s' t t', s <> s' /\ s <> 0 /\ s' <> 0 /\
    (let P := range_point F Hs Fs f x Q R y0 y1 z ρ in
     tree_accepts k (gmul s U) Hs (range_gens Fs y0) (gadd P (gmul (s * c) U)) t /\
     tree_accepts k (gmul s' U) Hs (range_gens Fs y0) (gadd P (gmul (s' * c) U)) t') /\
    range_equation G H C1 C2 f u y0 y1 z c τ.
(** All conversations that start with V, W, Q and the challenge x: an accepting tree of the iterated reduction
    (C20) and, after each of its paths, answers to all challenges that follow. *)
Definition range_conversations {M : Grp} (k : nat) (U F G H : M) (Gs Hs Fs : list M) (V W Q : M) (x : Zr) : Prop :=
  exists γ t, itree_accepts k Gs (gadd (gadd (gmul γ F) V) (gmul x W)) t /\
    forall xs u, itree_path t xs u ->
      let f := bitprod (reverse xs) <$> seq 0 (2 ^ k) in
      range_answers_with (range_answer_trees (k + 6) U F G H Hs Fs f x u Q) (2 ^ k).

Lemma indep_range_gens {M : Grp} (U : M) Hs Fs y0 : y0 <> 0 -> indep U Hs Fs -> indep U Hs (range_gens Fs y0).
Proof.
  intros Hy Hi a b c La Lb E. unfold range_gens in *.
  assert (Lp : forall y, length (powers (length Fs) y) = length Fs) by (intros; apply powers_length).
  rewrite gvmul_length in * by apply Lp.
  assert (E' : opening U Hs Fs a (vmul b (powers (length Fs) (zinv y0))) c = gzero).
  { rewrite <- E. unfold opening. rewrite msm_gvmul by (rewrite Lp; lia). done. }
  destruct (Hi a (vmul b (powers (length Fs) (zinv y0))) c La) as (Ea & Eb & Ec); [rewrite vmul_length; rewrite ?Lp; lia|done|].
  split; [done|]. split; [|done].
  assert (Eb' : vmul (vmul b (powers (length Fs) (zinv y0))) (powers (length Fs) y0) = b).
  { rewrite vmul_assoc, (vmul_comm (powers _ (zinv y0))), powers_inv by done. apply vmul_ones. done. }
  rewrite <- Eb', Eb. unfold vmul, zeros. apply list_eq. intros i. rewrite lookup_zip_with.
  destruct (decide (i < length Fs)%nat) as [Hl|Hl].
  - rewrite lookup_replicate_2 by done. destruct (lookup_lt_is_Some_2 (powers (length Fs) y0) i) as [p ->]; [rewrite Lp; done|]. cbn. apply f_equal. ring.
  - rewrite (lookup_ge_None_2 (replicate _ _)); [done|]. rewrite replicate_length. lia.
Qed.

(** From all conversations for two different challenges x one opening of V with values in range is
    extracted. *)
Theorem C65_special_soundness : forall (M : Grp) k (U F G H : M) Gs Hs Fs V W Q x1 x2,
  length Gs = (2 ^ k)%nat -> length Hs = (2 ^ k * 64)%nat -> length Fs = (2 ^ k * 64)%nat ->
  indep1 Gs -> indep F Hs Fs -> indep U Hs Fs -> indep1 [G; H] -> x1 <> x2 ->
  range_conversations k U F G H Gs Hs Fs V W Q x1 -> range_conversations k U F G H Gs Hs Fs V W Q x2 ->
  exists r v, length v = (2 ^ k)%nat /\ V = gadd (gmul r F) (msm v Gs) /\ Forall in_range v.
Proof.
  intros M k U F G H Gs Hs Fs V W Q x1 x2 LG LH LF HiG Hi HiU HiGH Hx (γ1 & t1 & T1 & A1) (γ2 & t2 & T2 & A2).
  assert (Hgo : forall x u f, length f = (2 ^ k)%nat -> range_answers_with (range_answer_trees (k + 6) U F G H Hs Fs f x u Q) (2 ^ k) ->
    range_answers F G H Hs Fs f x u Q).
  { intros x u f Lf (R & y0s & L0 & D0 & Z0 & A). unfold range_answers. rewrite Lf. exists R, y0s. split_and!; try done.
    intros y0 Hy0. destruct (A y0 Hy0) as (y1s & L1 & D1 & B). exists y1s. split_and!; try done.
    intros y1 Hy1. destruct (B y1 Hy1) as (C1 & C2 & zs & Lz & Dz & D). exists C1, C2, zs. split_and!; try done.
    intros z Hz. destruct (D z Hz) as (ρ & τ & c & s & s' & t & t' & Hs1 & Hs2 & Hs3 & [Ht Ht'] & E).
    assert (Hpow : (2 ^ k * 64 = 2 ^ (k + 6))%nat) by (rewrite Nat.pow_add_r; done).
    assert (Hy : y0 <> 0) by (intros ->; contradiction).
    destruct (C16_two_first_challenges M (k + 6) U Hs (range_gens Fs y0) (range_point F Hs Fs f x Q R y0 y1 z ρ) c s s' t t') with (7 := Ht) (8 := Ht') as (a & b & La & Lb & EP & Ec);
      [lia|unfold range_gens; rewrite gvmul_length; rewrite ?powers_length; lia|apply indep_range_gens; done|done..|].
    exists ρ, τ, c, a, b. split_and!; try done; lia. }
  eapply (opened_extract k F G H Gs Hs Fs V W Q x1 x2 γ1 γ2 t1 t2); try done;
    intros xs u Hp; (apply Hgo; [rewrite fmap_length, seq_length; done|]); [exact (A1 xs u Hp)|exact (A2 xs u Hp)].
Qed.
(** If V's opening is unique, then every opening of V anybody knows has its values in range. *)
Theorem C65_committed_in_range : forall (M : Grp) k (U F G H : M) Gs Hs Fs V W Q x1 x2 r v,
  length Gs = (2 ^ k)%nat -> length Hs = (2 ^ k * 64)%nat -> length Fs = (2 ^ k * 64)%nat ->
  indep1 (F :: Gs) -> indep F Hs Fs -> indep U Hs Fs -> indep1 [G; H] -> x1 <> x2 ->
  range_conversations k U F G H Gs Hs Fs V W Q x1 -> range_conversations k U F G H Gs Hs Fs V W Q x2 ->
  length v = (2 ^ k)%nat -> V = gadd (gmul r F) (msm v Gs) -> Forall in_range v.
Proof.
  intros M k U F G H Gs Hs Fs V W Q x1 x2 r v LG LH LF HiG Hi HiU HiGH Hx K1 K2 Lv EV.
  assert (HiG' : indep1 Gs).
  { intros a La E. assert (E' : msm (0 :: a) (F :: Gs) = gzero) by (cbn [msm]; rewrite E; module).
    apply HiG in E'; [|cbn; lia]. unfold zeros in E'. cbn [length replicate] in E'. apply cons_inv in E'. apply E'. }
  destruct (C65_special_soundness M k U F G H Gs Hs Fs V W Q x1 x2) as (r' & v' & Lv' & EV' & Hr); try done.
  rewrite EV in EV'. change (msm (r :: v) (F :: Gs) = msm (r' :: v') (F :: Gs)) in EV'.
  apply msm_inj in EV'; [|done|cbn; lia|cbn; lia]. apply cons_inv in EV'. destruct EV' as [_ ->]. done.
Qed.

(** ** What VerifyRange checks *)
Lemma rc0_const n f u y0 y1 : length f = n ->
  rc0 (n * rp_m) (dD f) (PowerSeries (n * rp_m) y0) y1 u = range_const f u y0 y1.
Proof.
  intros <-. unfold rc0, range_const. change rp_m with 63%nat. change (dD f) with (bit_weights f). cbv zeta.
  pose proof (bit_weights_length f) as Lb. generalize dependent (bit_weights f). intros b Lb.
  generalize dependent (length f * 63)%nat. intros n <-. rewrite powers_series.
  assert (E : dot (ones (length b)) (powers (length b) y0) = zsum (powers (length b) y0)).
  { rewrite <- (powers_length (length b) y0) at 1. apply dot_ones_l. }
  rewrite E, dot_ones_l. ring.
Qed.
Lemma rg_P_point {C : Curve} (pp : RPPP C) n f x Q R y0 y1 z ρ : length f = n ->
  (n * rp_m <= length (rp_Hs pp))%nat -> (n * rp_m <= length (rp_Fs pp))%nat ->
  rg_P pp (n * rp_m) ρ Q R z y0 y1 (dvec f x) = range_point (rp_F pp) (rp_Hs pp) (rp_Fs pp) f x Q R y0 y1 z ρ.
Proof.
  intros <- LH LF. unfold rg_P, range_point, rg_Fp, range_gens. change rp_m with 63%nat in *. change (dvec f x) with (range_weights f x).
  cbv zeta. generalize dependent (length f * 63)%nat. intros n LH LF. rewrite powers_series.
  assert (Hgs : forall (l : list (G1 C)), (n <= length l)%nat -> msm (vscale y1 (ones n)) (take n l) = gmul y1 (gsum (take n l))).
  { intros l Hn. rewrite msm_vscale. f_equal. assert (E : length (take n l) = n) by (rewrite take_length; lia). rewrite <- E at 1. apply msm_ones. }
  rewrite !Hgs, msm_vscale by done. done.
Qed.
(** The challenges are hashes of what is listed; the inner argument runs on the digest of its generators. *)
Theorem C65_acceptance : forall (C : Curve) (pp : RPPP C) k rp V,
  params_for k pp -> (k <= length (rp_Δ rp))%nat -> (2 * (k + 6) <= length (ipp_LRs (rp_Π rp)))%nat ->
  let Q := rp_Q rp in let R := rp_R rp in let D := rp_Digest pp in
  let x := fe (sha256 C (D ++ enc1 C V ++ enc1 C (rp_W rp) ++ enc1 C Q)) in
  let y b := fe (sha256 C (enc1 C Q ++ enc1 C R ++ [b] ++ D ++ Zr_Bytes x)) in
  let y0 := y 0%Z in let y1 := y 1%Z in
  let z := fe (sha256 C (enc1 C Q ++ enc1 C R ++ D ++ enc1 C (rp_C1 rp) ++ enc1 C (rp_C2 rp) ++ Zr_Bytes y0 ++ Zr_Bytes y1)) in
  let ir_pp := rg_rdx pp in
  let V' := gadd (gadd (gmul (rp_γ rp) (rp_F pp)) V) (gmul x (rp_W rp)) in
  let xs := ir_challenges ir_pp V' (take k (rp_Δ rp)) in
  let f := bitprod (reverse xs) <$> seq 0 (2 ^ k) in
  let P := range_point (rp_F pp) (rp_Hs pp) (rp_Fs pp) f x Q R y0 y1 z (rp_ρ rp) in
  let Π := MkIPP (ipp_LRs (rp_Π rp)) (ipp_a (rp_Π rp)) (ipp_b (rp_Π rp)) P (rp_c rp) in
  let U := rand_gen "u" 0 in let Fs' := range_gens (rp_Fs pp) y0 in
  exists e, VerifyRange pp rp V = Ret e /\
    (e = nil_error <->
     ir_rounds xs V' (rp_Δ rp) /\
     (exists G0, folded_generators xs (rp_Gs pp) = [G0] /\ ir_last V' (take k (rp_Δ rp)) = gmul (rp_u rp) G0) /\
     IPP_Verify Π (MkBpPP (sha256 C (setup_pre (rp_Hs pp) Fs' U)) (rp_Hs pp) Fs' U) = Ret nil_error /\
     range_equation (rp_G pp) (rp_H pp) (rp_C1 rp) (rp_C2 rp) f (rp_u rp) y0 y1 z (rp_c rp) (rp_τ rp)).
Proof.
  intros C pp k rp V Hpp HΔ HL Q R D x y y0 y1 z ir_pp V' xs f P Π U Fs'.
  pose proof (params_for_wf _ _ Hpp) as Hwf. destruct (verify_range_accept k pp rp V Hwf HΔ HL) as (rp' & e & Hrun & He).
  exists e. split; [unfold VerifyRange; rewrite Hrun; done|]. rewrite He. clear Hrun He rp'.
  change (rv_U pp rp V) with V'. change (rg_rdx pp) with ir_pp.
  destruct Hpp as (Hk & LG & LH & LF).
  destruct (C19_acceptance C ir_pp k V' (rp_Δ rp) (rp_u rp) LG Hk HΔ) as (res & Hres & _ & Hacc). fold xs in Hacc. change (bp_G ir_pp) with (rp_Gs pp) in Hacc.
  assert (Lxs : length xs = k) by (unfold xs, ir_challenges; rewrite ir_chal_length, take_length; lia).
  assert (Ef : vco (rv_xs k pp rp V) = f) by (change (rv_xs k pp rp V) with xs; rewrite vco_bitprod, Lxs; done).
  assert (Lf : length f = (2 ^ k)%nat) by (unfold f; rewrite fmap_length, seq_length; done).
  assert (EFp : rg_Fp pp y0 = Fs') by (unfold rg_Fp, Fs', range_gens; rewrite powers_series; done).
  assert (EP : rv_P k pp rp V = P).
  { unfold rv_P, rv_d. rewrite Ef. apply rg_P_point; [exact Lf|rewrite LH|rewrite LF]; unfold rp_m; lia. }
  assert (Ec : rv_c0 k pp rp V = range_const f (rp_u rp) y0 y1).
  { unfold rv_c0. rewrite Ef. apply rc0_const. exact Lf. }
  assert (EPi : rv_Π k pp rp V = Π) by (unfold rv_Π; rewrite EP; done).
  assert (Eipa : rg_ipa pp (rv_y0 pp rp V) = MkBpPP (sha256 C (setup_pre (rp_Hs pp) Fs' U)) (rp_Hs pp) Fs' U).
  { unfold rg_ipa. change (rv_y0 pp rp V) with y0. rewrite EFp. done. }
  rewrite EPi, Eipa. unfold rv_final. rewrite Ec. cbv zeta. change (rv_z pp rp V) with z.
  assert (Hir : (exists p, IterativeVerify ir_pp V' (rp_Δ rp) (rp_u rp) = Ret (inl p)) <->
    ir_rounds xs V' (rp_Δ rp) /\ exists G0, folded_generators xs (rp_Gs pp) = [G0] /\ ir_last V' (take k (rp_Δ rp)) = gmul (rp_u rp) G0).
  { rewrite <- Hacc, Hres. split; intros [p E]; exists p; [inversion E; done|rewrite E; done]. }
  rewrite Hir. unfold range_equation. tauto.
Qed.
Print Assumptions C65_special_soundness.
Print Assumptions C65_committed_in_range.
Print Assumptions C65_acceptance.

(** ** The hypotheses can be met: the honest prover answers all challenges *)
Definition honest_L {M : Grp} n (U : M) (g h : list M) (a b : list Zr) : M :=
  opening U (drop n g) (take n h) (take n a) (drop n b) (dot (take n a) (drop n b)).
Definition honest_R {M : Grp} n (U : M) (g h : list M) (a b : list Zr) : M :=
  opening U (take n g) (drop n h) (drop n a) (take n b) (dot (drop n a) (take n b)).
Definition fold2z (x y : Zr) (n : nat) (a : list Zr) : list Zr := vadd (vscale x (take n a)) (vscale y (drop n a)).
Lemma fold2z_length x y n a : length a = (n + n)%nat -> length (fold2z x y n a) = n.
Proof. intros H. unfold fold2z. rewrite vadd_length; rewrite ?vscale_length, ?take_length, ?drop_length; lia. Qed.
Lemma honest_ipa_round {M : Grp} n x (U : M) a b g h : x <> 0 ->
  length a = (n + n)%nat -> length b = (n + n)%nat -> length g = (n + n)%nat -> length h = (n + n)%nat ->
  gadd (gadd (gmul (x * x) (honest_L n U g h a b)) (opening U g h a b (dot a b))) (gmul (zinv (x * x)) (honest_R n U g h a b)) =
  opening U (fold2 (zinv x) x n g) (fold2 x (zinv x) n h) (fold2z x (zinv x) n a) (fold2z (zinv x) x n b)
    (dot (fold2z x (zinv x) n a) (fold2z (zinv x) x n b)).
Proof.
  intros Hx Ha Hb Hg Hh.
  assert (Ey : zinv (x * x) = zinv x * zinv x) by (field; done).
  assert (E1 : x * zinv x = 1) by (field; done).
  rewrite Ey. clear Ey. unfold honest_L, honest_R, opening, fold2, fold2z.
  rewrite (msm_split n a g), (msm_split n b h), (dot_split n a b).
  assert (La : length (take n a) = length (drop n a)) by (rewrite take_length, drop_length; lia).
  assert (Lb : length (take n b) = length (drop n b)) by (rewrite take_length, drop_length; lia).
  assert (Lg : length (take n g) = length (drop n g)) by (rewrite take_length, drop_length; lia).
  assert (Lh : length (take n h) = length (drop n h)) by (rewrite take_length, drop_length; lia).
  rewrite !msm_vadd, !msm_gvadd, !msm_gvscale, !msm_vscale by (rewrite ?vscale_length, ?gvscale_length; done).
  rewrite !dot_vadd_l, !dot_vadd_r, !dot_vscale_l, !dot_vscale_r by (rewrite !vscale_length; done).
  generalize (take n a) (drop n a) (take n b) (drop n b) (take n g) (drop n g) (take n h) (drop n h).
  intros a1 a2 b1 b2 g1 g2 h1 h2.
  generalize dependent (zinv x). intros y Hy.
  module_pre; ring [Hy].
Qed.
Lemma small_neq a b : (0 <= a < 2 ^ 32)%Z -> (0 <= b < 2 ^ 32)%Z -> a <> b -> zr a <> zr b.
Proof. intros Ha Hb Hab E. assert (2 ^ 32 < r)%Z by reflexivity. apply zr_inj_small in E; lia. Qed.
Lemma NoDup_small l : Forall (fun a => 0 <= a < 2 ^ 32)%Z l -> NoDup l -> NoDup (zr <$> l).
Proof.
  intros Hf Hd. induction l as [|a l IH]; [apply NoDup_nil_2|]. apply NoDup_cons in Hd. destruct Hd as [Ha Hd].
  apply Forall_cons in Hf. destruct Hf as [Hfa Hf]. cbn. apply NoDup_cons. split; [|apply IH; done].
  intros E. apply elem_of_list_fmap in E. destruct E as (b & E & Hb). rewrite Forall_forall in Hf. pose proof (Hf b Hb) as Hfb.
  destruct (decide (a = b)) as [->|Hab]; [done|]. exact (small_neq a b Hfa Hfb Hab E).
Qed.
Ltac nodup_small := apply (NoDup_small); [repeat constructor; lia|repeat (apply NoDup_cons; split; [set_solver by lia|]); apply NoDup_nil_2].
Lemma honest_tree {M : Grp} k : forall (U : M) g h a b,
  length a = (2 ^ k)%nat -> length b = (2 ^ k)%nat -> length g = (2 ^ k)%nat -> length h = (2 ^ k)%nat ->
  exists t, tree_accepts k U g h (opening U g h a b (dot a b)) t.
Proof.
  induction k as [|k IH]; intros U g h a b La Lb Lg Lh.
  - destruct a as [|a [|]]; try (cbn in La; lia). destruct b as [|b [|]]; try (cbn in Lb; lia).
    exists (Leaf a b). cbn. f_equal. ring.
  - set (n := (2 ^ k)%nat) in *. assert (Hn : (2 ^ S k = n + n)%nat) by (unfold n; cbn; lia). rewrite Hn in *.
    assert (Hgo : forall x, x <> 0 -> exists t, tree_accepts k U (fold2 (zinv x) x n g) (fold2 x (zinv x) n h)
      (gadd (gadd (gmul (x * x) (honest_L n U g h a b)) (opening U g h a b (dot a b))) (gmul (zinv (x * x)) (honest_R n U g h a b))) t).
    { intros x Hx. rewrite honest_ipa_round by done. apply IH; first [apply fold2z_length; done|apply fold2_length; done]. }
    assert (Hnz : forall z, (0 < z < 2 ^ 32)%Z -> zr z <> 0) by (intros z Hz; change 0 with (zr 0); apply small_neq; lia).
    destruct (Hgo (zr 1)) as [t1 T1]; [apply Hnz; lia|]. destruct (Hgo (zr 2)) as [t2 T2]; [apply Hnz; lia|].
    destruct (Hgo (zr 3)) as [t3 T3]; [apply Hnz; lia|]. destruct (Hgo (zr 4)) as [t4 T4]; [apply Hnz; lia|].
    exists (Node (honest_L n U g h a b) (honest_R n U g h a b) (zr 1) t1 (zr 2) t2 (zr 3) t3 (zr 4) t4). cbn [tree_accepts].
    split; [|split_and!; first [assumption|apply Hnz; lia]].
    rewrite <- !zr_mul. change (NoDup (zr <$> [1 * 1; 2 * 2; 3 * 3; 4 * 4]%Z)). nodup_small.
Qed.
Lemma honest_itree {M : Grp} k : forall (Gs : list M) v, length Gs = (2 ^ k)%nat -> length v = (2 ^ k)%nat ->
  exists t, itree_accepts k Gs (msm v Gs) t /\ forall xs u, itree_path t xs u -> u = dot v (vco xs).
Proof.
  induction k as [|k IH]; intros Gs v LG Lv.
  - destruct v as [|v0 [|]]; try (cbn in Lv; lia). exists (ILeaf v0). split; [done|]. intros [|] u; cbn; [|done]. intros ->. ring.
  - set (n := (2 ^ k)%nat) in *. assert (Hn : (2 ^ S k = n + n)%nat) by (unfold n; cbn; lia). rewrite Hn in *.
    set (A := msm (drop n v) (take n Gs)). set (B := msm (take n v) (drop n Gs)).
    assert (Hgo : forall x, x <> 0 -> exists t, itree_accepts k (fold2 1 (zinv x) n Gs) (gadd (gadd (msm v Gs) (gmul x A)) (gmul (zinv x) B)) t /\
      forall xs u, itree_path t xs u -> u = dot v (vco (x :: xs))).
    { intros x Hx. destruct (IH (fold2 1 (zinv x) n Gs) (foldv x n v)) as (t & T & HT); [apply fold2_length; done|apply foldv_length; done|].
      exists t. split.
      - assert (E : msm (foldv x n v) (fold2 1 (zinv x) n Gs) = gadd (gadd (msm v Gs) (gmul x A)) (gmul (zinv x) B)); [|rewrite <- E; exact T].
        unfold foldv, fold2, A, B. rewrite (msm_split n v Gs), gvscale_1.
        assert (Lvv : length (take n v) = length (drop n v)) by (rewrite take_length, drop_length; lia).
        assert (LGG : length (take n Gs) = length (drop n Gs)) by (rewrite take_length, drop_length; lia).
        rewrite !msm_vadd, !msm_gvadd, !msm_gvscale, !msm_vscale by (rewrite ?vscale_length, ?gvscale_length; done).
        clear T HT. assert (Hy : x * zinv x = 1) by (field; done). generalize dependent (zinv x). intros y Hy.
        module_pre; ring [Hy].
      - intros xs u Hp. rewrite (HT xs u Hp). pose proof (itree_path_length k _ _ t xs u T Hp) as L. unfold n. rewrite <- L.
        apply dot_foldv. rewrite L, Hn. done. }
    assert (Hnz : forall z, (0 < z < 2 ^ 32)%Z -> zr z <> 0) by (intros z Hz; change 0 with (zr 0); apply small_neq; lia).
    destruct (Hgo (zr 1)) as (t1 & T1 & P1); [apply Hnz; lia|]. destruct (Hgo (zr 2)) as (t2 & T2 & P2); [apply Hnz; lia|].
    destruct (Hgo (zr 3)) as (t3 & T3 & P3); [apply Hnz; lia|]. destruct (Hgo (zr 4)) as (t4 & T4 & P4); [apply Hnz; lia|].
    exists (INode A B (zr 1) t1 (zr 2) t2 (zr 3) t3 (zr 4) t4). split.
    + cbn [itree_accepts]. split; [|split_and!; first [assumption|apply Hnz; lia]].
      change (NoDup (zr <$> [1; 2; 3; 4]%Z)). nodup_small.
    + intros [|x xs] u Hp; [done|]. cbn [itree_path] in Hp. destruct Hp as [[-> Hp]|[[-> Hp]|[[-> Hp]|[-> Hp]]]]; eauto.
Qed.

Lemma honest_answers {M : Grp} k (U F G H : M) Hs Fs f x u Q qH qF ν :
  (k < 16)%nat -> length f = (2 ^ k)%nat -> length Hs = (2 ^ k * 64)%nat -> length Fs = (2 ^ k * 64)%nat ->
  length qH = (2 ^ k * 64)%nat -> length qF = (2 ^ k * 64)%nat -> Q = opening F Hs Fs qH qF ν ->
  dot qH (range_weights f x) = u -> vmul qH qF = zeros (2 ^ k * 64) ->
  vsub (vadd (take (2 ^ k * 63) qH) (take (2 ^ k * 63) qF)) (ones (2 ^ k * 63)) = zeros (2 ^ k * 63) ->
  range_answers_with (range_answer_trees (k + 6) U F G H Hs Fs f x u Q) (2 ^ k).
Proof.
  intros Hk Lf LH LF LqH LqF EQ Eu Emul Eadd. rewrite <- Lf in *.
  assert (Hpow : (length f * 64 = 2 ^ (k + 6))%nat) by (rewrite Lf, Nat.pow_add_r; done).
  pose (rH := replicate (length f * 64) (zr 7)). pose (rF := replicate (length f * 64) (zr 8)).
  assert (LrH : length rH = (length f * 64)%nat) by apply replicate_length.
  assert (LrF : length rF = (length f * 64)%nat) by apply replicate_length.
  exists (opening F Hs Fs rH rF (zr 9)), (zr <$> (Z.of_nat <$> seq 1 (length f * 64))).
  assert (Hbound : (Z.of_nat (length f * 64) < 2 ^ 22)%Z) by (rewrite Hpow, Nat2Z.inj_pow; apply Z.pow_lt_mono_r; lia).
  assert (Hb2 : forall i, i ∈ seq 1 (length f * 64) -> (0 < Z.of_nat i < 2 ^ 32)%Z).
  { intros i Hi. apply elem_of_seq in Hi. lia. }
  split; [rewrite !fmap_length, seq_length; done|]. split.
  { apply NoDup_small; [|apply NoDup_fmap_2; [apply Nat2Z.inj'|apply NoDup_seq]].
    apply Forall_forall. intros a Ha. apply elem_of_list_fmap in Ha. destruct Ha as (i & -> & Hi). apply Hb2 in Hi. lia. }
  assert (Hnz : forall y0, y0 ∈ zr <$> (Z.of_nat <$> seq 1 (length f * 64)) -> y0 <> 0).
  { intros y0 Hy. apply elem_of_list_fmap in Hy. destruct Hy as (a & -> & Ha). apply elem_of_list_fmap in Ha. destruct Ha as (i & -> & Hi).
    change 0 with (zr 0). pose proof (Hb2 i Hi). apply small_neq; lia. }
  split; [intros Hin; apply Hnz in Hin; done|]. intros y0 Hin. apply Hnz in Hin. clear Hnz Hb2 Hbound.
  exists (zr <$> [1; 2; 3]%Z). split; [done|]. split; [nodup_small|]. intros y1 _.
  set (o := vscale y1 (ones (length f * 63) ++ zeros (length f))). set (d := range_weights f x).
  set (a0 := vadd qH o). set (b0 := vadd (vmul (vadd qF o) (powers (length f * 64) y0)) (vscale (y1 * y1) d)).
  set (b1 := vmul rF (powers (length f * 64) y0)).
  assert (Lo' : length o = (length f * 64)%nat) by apply (Lo Hs Fs f LH LF).
  assert (Ld' : length d = (length f * 64)%nat) by apply (Ld Hs Fs f x u LH LF).
  assert (La0 : length a0 = (length f * 64)%nat) by (unfold a0; rewrite vadd_length; lia).
  assert (Lb1 : length b1 = (length f * 64)%nat) by (unfold b1; rewrite vmul_length; rewrite ?powers_length; lia).
  assert (Lv : length (vmul (vadd qF o) (powers (length f * 64) y0)) = (length f * 64)%nat).
  { rewrite vmul_length; rewrite vadd_length; rewrite ?powers_length; lia. }
  assert (Lb0 : length b0 = (length f * 64)%nat) by (unfold b0; rewrite vadd_length; rewrite ?vscale_length; lia).
  assert (E0 : dot a0 b0 = range_const f u y0 y1).
  { pose proof (const_term Hs Fs f x u LH LF qH qF y0 y1 LqH LqF) as ET. cbv zeta in ET. rewrite Emul, Eadd, Eu in ET.
    change (dot a0 b0 = range_const f u y0 y1 + (y1 * y1 * (u - u) + y1 * dot (zeros (length f * 63)) (powers (length f * 63) y0) + dot (zeros (length f * 64)) (powers (length f * 64) y0))) in ET.
    rewrite ET, !dot_zeros_l. ring. }
  set (c1 := dot rH b0 + dot a0 b1). set (c2 := dot rH b1).
  exists (gadd (gmul c1 G) (gmul (zr 4) H)), (gadd (gmul c2 G) (gmul (zr 5) H)), (zr <$> [1; 2; 3]%Z).
  split; [done|]. split; [nodup_small|]. intros z _.
  set (a := vadd a0 (vscale z rH)). set (b := vadd b0 (vscale z b1)).
  assert (La : length a = (length f * 64)%nat) by (unfold a; rewrite vadd_length; rewrite ?vscale_length; lia).
  assert (Lb : length b = (length f * 64)%nat) by (unfold b; rewrite vadd_length; rewrite ?vscale_length; lia).
  assert (LFs : length (range_gens Fs y0) = (length f * 64)%nat) by (unfold range_gens; rewrite gvmul_length; rewrite ?powers_length; lia).
  pose proof (honest_point F Hs Fs f x u LH LF Q (opening F Hs Fs rH rF (zr 9)) qH qF ν rH rF (zr 9) y0 y1 z Hin LqH LqF LrH LrF EQ eq_refl) as EP.
  cbv zeta in EP. fold o d in EP. change (range_point F Hs Fs f x Q (opening F Hs Fs rH rF (zr 9)) y0 y1 z (- (ν + z * zr 9)) =
    gadd (msm a Hs) (msm b (range_gens Fs y0))) in EP.
  assert (Hgo : forall s, exists t, tree_accepts (k + 6) (gmul s U) Hs (range_gens Fs y0)
    (gadd (range_point F Hs Fs f x Q (opening F Hs Fs rH rF (zr 9)) y0 y1 z (- (ν + z * zr 9))) (gmul (s * dot a b) U)) t).
  { intros s. rewrite EP.
    assert (E : gadd (gadd (msm a Hs) (msm b (range_gens Fs y0))) (gmul (s * dot a b) U) = opening (gmul s U) Hs (range_gens Fs y0) a b (dot a b)).
    { unfold opening. rewrite <- gmul_mul. f_equal. f_equal. ring. }
    rewrite E. apply honest_tree; lia. }
  destruct (Hgo (zr 1)) as [t T]. destruct (Hgo (zr 2)) as [t' T'].
  exists (- (ν + z * zr 9)), (z * zr 4 + z * z * zr 5), (dot a b), (zr 1), (zr 2), t, t'.
  split; [apply small_neq; lia|]. split; [change 0 with (zr 0); apply small_neq; lia|]. split; [change 0 with (zr 0); apply small_neq; lia|].
  split; [split; [exact T|exact T']|].
  assert (Ec : dot a b = range_const f u y0 y1 + z * c1 + z * z * c2).
  { rewrite <- E0. unfold a, b, c1, c2. rewrite dot_vadd_l by (rewrite vscale_length; lia). rewrite !dot_vadd_r by (rewrite vscale_length; lia).
    rewrite !dot_vscale_l, !dot_vscale_r. ring. }
  unfold range_equation. rewrite Ec. generalize (range_const f u y0 y1) (zr 4) (zr 5). intros. module.
Qed.
(** The honest prover has answers for every opening with values in range. *)
Theorem C65_honest_conversations : forall (M : Grp) k (U F G H : M) Gs Hs Fs r v w ω,
  (k < 16)%nat -> length Gs = (2 ^ k)%nat -> length Hs = (2 ^ k * 64)%nat -> length Fs = (2 ^ k * 64)%nat ->
  length v = (2 ^ k)%nat -> length w = (2 ^ k)%nat -> Forall in_range v ->
  exists Q, forall x, range_conversations k U F G H Gs Hs Fs (gadd (gmul r F) (msm v Gs)) (gadd (gmul ω F) (msm w Gs)) Q x.
Proof.
  intros M k U F G H Gs Hs Fs r v w ω Hk LG LH LF Lv Lw Hr. pose (ν := zr 7).
  destruct (vec_bits_small v Hr) as (l & _ & Zl & Ll & Dl). rewrite Lv in Ll. change rp_m with 63%nat in Ll.
  set (bits := zr <$> l). assert (Lbits : length bits = (2 ^ k * 63)%nat) by (unfold bits; rewrite fmap_length; done).
  set (qH := bits ++ w). set (qF := vsub (ones (2 ^ k * 63)) bits ++ zeros (2 ^ k)).
  assert (Lob : length (vsub (ones (2 ^ k * 63)) bits) = (2 ^ k * 63)%nat) by (rewrite vsub_length; unfold ones; rewrite replicate_length; lia).
  assert (LqH : length qH = (2 ^ k * 64)%nat) by (unfold qH; rewrite app_length; lia).
  assert (LqF : length qF = (2 ^ k * 64)%nat) by (unfold qF; rewrite app_length; unfold zeros; rewrite replicate_length; lia).
  exists (opening F Hs Fs qH qF ν). intros x.
  assert (Lvw : length (vadd v (vscale x w)) = (2 ^ k)%nat) by (rewrite vadd_length; rewrite ?vscale_length; lia).
  destruct (honest_itree k Gs (vadd v (vscale x w)) LG Lvw) as (t & T & HT).
  exists (- (r + x * ω)), t. split.
  - assert (E : gadd (gadd (gmul (- (r + x * ω)) F) (gadd (gmul r F) (msm v Gs))) (gmul x (gadd (gmul ω F) (msm w Gs))) = msm (vadd v (vscale x w)) Gs).
    { rewrite msm_vadd, msm_vscale by (rewrite vscale_length; lia). module. }
    rewrite E. exact T.
  - intros xs u Hp f. assert (Lf : length f = (2 ^ k)%nat) by (unfold f; rewrite fmap_length, seq_length; done).
    apply (honest_answers k U F G H Hs Fs f x u (opening F Hs Fs qH qF ν) qH qF ν); try done.
    + rewrite (HT xs u Hp). rewrite vco_bitprod, (itree_path_length k _ _ t xs u T Hp). fold f.
      unfold qH, range_weights. rewrite dot_app by (rewrite bit_weights_length, Lf; done).
      change (bit_weights f) with (dD f). unfold bits. rewrite Dl by lia.
      rewrite dot_vadd_l by (rewrite vscale_length; lia). rewrite dot_vscale_l, dot_vscale_r. done.
    + unfold qH, qF, vmul. rewrite zip_with_app by lia. replace (2 ^ k * 64)%nat with (2 ^ k * 63 + 2 ^ k)%nat by lia.
      unfold zeros. rewrite replicate_add. f_equal.
      * change (vmul bits (vsub (ones (2 ^ k * 63)) bits) = zeros (2 ^ k * 63)). rewrite <- Ll. apply bits_complement. done.
      * revert Lw. generalize (2 ^ k)%nat. clear. intros n. revert w. induction n as [|n IH]; intros [|y w] Hw; cbn in *; try lia; [done|].
        apply f_equal2; [ring|apply IH; lia].
    + unfold qH, qF. rewrite !take_app_alt by lia. revert Lbits. generalize (2 ^ k * 63)%nat bits. clear. intros n b. revert b. unfold ones, zeros, vsub, vadd.
      induction n as [|n IH]; intros [|y b] Hb; cbn in *; try lia; [done|]. apply f_equal2; [ring|apply IH; lia].
Qed.

(** Free modules with basis vectors [fbasis n i], i < n. *)
Fixpoint freeG (n : nat) : Grp := match n with O => toyG | S n => prodG toyG (freeG n) end.
Fixpoint fcoord (n : nat) : freeG n -> nat -> Zr :=
  match n with O => fun p _ => p | S n => fun p i => match i with O => p.1 | S i => fcoord n p.2 i end end.
Fixpoint fbasis (n : nat) (i : nat) : freeG n :=
  match n with
  | O => (1 : toyG)
  | S n => match i with O => ((1 : toyG), gzero) | S i => ((0 : toyG), fbasis n i) end
  end.
Lemma fcoord_zero n i : fcoord n gzero i = 0.
Proof. revert i. induction n as [|n IH]; intros i; [done|]. destruct i as [|i]; [done|]. apply IH. Qed.
Lemma fcoord_add n p q i : fcoord n (gadd p q) i = fcoord n p i + fcoord n q i.
Proof. revert i. induction n as [|n IH]; intros i; [done|]. destruct i as [|i]; [done|]. apply IH. Qed.
Lemma fcoord_mul n s p i : fcoord n (gmul s p) i = s * fcoord n p i.
Proof. revert i. induction n as [|n IH]; intros i; [done|]. destruct i as [|i]; [done|]. apply IH. Qed.
Lemma fcoord_basis n i j : (i < n)%nat -> (j < n)%nat -> fcoord n (fbasis n i) j = if decide (i = j) then 1 else 0.
Proof.
  revert i j. induction n as [|n IH]; intros i j Hi Hj; [lia|]. destruct i as [|i], j as [|j]; cbn [fcoord fbasis fst snd].
  - done.
  - rewrite fcoord_zero. done.
  - done.
  - rewrite IH by lia. destruct (decide (i = j)), (decide (S i = S j)); try done; lia.
Qed.
Lemma fbasis_indep1 n l : NoDup l -> Forall (fun i => i < n)%nat l -> indep1 (fbasis n <$> l).
Proof.
  intros Hd Hl a La E. rewrite fmap_length in La |- *. unfold zeros.
  assert (Hc : forall j, (j < n)%nat -> fcoord n (msm a (fbasis n <$> l)) j = 0) by (intros j _; rewrite E; apply fcoord_zero).
  clear E. revert a La Hc. induction l as [|i l IH]; intros [|x a] La Hc; cbn in La; try lia; [done|].
  apply NoDup_cons in Hd. destruct Hd as [Hi Hd]. apply Forall_cons in Hl. destruct Hl as [Hin Hl].
  cbn [msm fmap list_fmap] in Hc.
  assert (Hz : forall l a j, Forall (fun i => i < n)%nat l -> (j < n)%nat -> j ∉ l -> fcoord n (msm a (fbasis n <$> l)) j = 0).
  { clear. induction l as [|i l IH]; intros [|x a] j Hl Hj Hn; cbn; try apply fcoord_zero.
    apply Forall_cons in Hl. destruct Hl as [Hi Hl]. rewrite fcoord_add, fcoord_mul, fcoord_basis, IH by (try done; set_solver).
    destruct (decide (i = j)) as [->|]; [set_solver|]. ring. }
  assert (x = 0) as ->.
  { specialize (Hc i Hin). rewrite fcoord_add, fcoord_mul, fcoord_basis, Hz in Hc by done. destruct (decide (i = i)); [|done].
    transitivity (x * 1 + 0); [ring|exact Hc]. }
  cbn [length replicate]. f_equal. apply IH; [done|done|lia|].
  intros j Hj. specialize (Hc j Hj). rewrite fcoord_add, fcoord_mul in Hc. rewrite <- Hc. ring.
Qed.
Lemma indep1_indep {M : Grp} (U : M) g h : indep1 (U :: g ++ h) -> indep U g h.
Proof.
  intros Hi a b c La Lb E.
  assert (E' : msm (c :: a ++ b) (U :: g ++ h) = gzero).
  { cbn [msm]. rewrite msm_app by done. rewrite <- E. unfold opening. module. }
  apply Hi in E'; [|cbn; rewrite !app_length; lia]. unfold zeros in E'. cbn [length replicate] in E'. apply cons_inv in E'. destruct E' as [-> E'].
  rewrite app_length, replicate_add in E'. apply app_inj_1 in E'; [|rewrite replicate_length; done]. destruct E' as [-> ->]. done.
Qed.
(** Two values, 5 and 2^63 - 1, and all other values the code needs, in a module where the generators are
    independent. *)
Example C65_nonvacuous : exists (M : Grp) (U F G H : M) Gs Hs Fs V W Q,
  length Gs = (2 ^ 1)%nat /\ length Hs = (2 ^ 1 * 64)%nat /\ length Fs = (2 ^ 1 * 64)%nat /\
  indep1 (F :: Gs) /\ indep F Hs Fs /\ indep U Hs Fs /\ indep1 [G; H] /\
  V = gadd (gmul (zr 11) F) (msm [zr 5; zr (2 ^ 63 - 1)] Gs) /\
  range_conversations 1 U F G H Gs Hs Fs V W Q (zr 1) /\ range_conversations 1 U F G H Gs Hs Fs V W Q (zr 2).
Proof.
  assert (Hex : exists n, (262 <= n)%nat) by (exists 262%nat; lia). destruct Hex as [n Hn0]. pose (e := fbasis n).
  pose (Gs := e <$> [4; 5]%nat). pose (Hs := e <$> seq 6 128). pose (Fs := e <$> seq 134 128).
  destruct (C65_honest_conversations (freeG n) 1 (e 0%nat) (e 1%nat) (e 2%nat) (e 3%nat) Gs Hs Fs (zr 11) [zr 5; zr (2 ^ 63 - 1)] [zr 3; zr 4] (zr 6))
    as (Q & HQ); [lia|done|unfold Hs; rewrite fmap_length, seq_length; done|unfold Fs; rewrite fmap_length, seq_length; done|done|done|
      repeat constructor; apply small_in_range; lia|].
  exists (freeG n), (e 0%nat), (e 1%nat), (e 2%nat), (e 3%nat), Gs, Hs, Fs. eexists _, _, Q.
  assert (Hn : forall i, i ∈ seq 6 128 ++ seq 134 128 -> (6 <= i < n)%nat).
  { intros i Hi. apply elem_of_app in Hi. rewrite !elem_of_seq in Hi. lia. }
  assert (Hd : NoDup (seq 6 128 ++ seq 134 128)).
  { apply NoDup_app. split; [apply NoDup_seq|]. split; [|apply NoDup_seq]. intros i Hi Hj. apply elem_of_seq in Hi, Hj. lia. }
  assert (Hbig : forall i, (i < 6)%nat -> indep (e i) Hs Fs).
  { intros i Hi. apply indep1_indep. unfold Hs, Fs. rewrite <- fmap_app. change (indep1 (fbasis n <$> i :: (seq 6 128 ++ seq 134 128))).
    apply fbasis_indep1; [apply NoDup_cons; split; [intros Hj; apply Hn in Hj; lia|done]|].
    apply Forall_cons. split; [lia|]. apply Forall_forall. intros j Hj. apply Hn in Hj. lia. }
  split; [done|]. split; [unfold Hs; rewrite fmap_length, seq_length; done|]. split; [unfold Fs; rewrite fmap_length, seq_length; done|].
  split.
  { change (indep1 (fbasis n <$> [1; 4; 5]%nat)). apply fbasis_indep1; [|repeat constructor; lia].
    rewrite !NoDup_cons, !elem_of_cons, !elem_of_nil. split_and!; try apply NoDup_nil_2; lia. }
  split; [apply Hbig; lia|]. split; [apply Hbig; lia|]. split.
  { change (indep1 (fbasis n <$> [2; 3]%nat)). apply fbasis_indep1; [|repeat constructor; lia].
    rewrite !NoDup_cons, !elem_of_cons, !elem_of_nil. split_and!; try apply NoDup_nil_2; lia. }
  split; [reflexivity|]. split; apply HQ.
Qed.
Print Assumptions C65_honest_conversations.
Example C65_acceptance_nonvacuous : exists pp rp V, params_for (C:=toy) 1 pp /\ (1 <= length (rp_Δ rp))%nat /\
  (2 * (1 + 6) <= length (ipp_LRs (rp_Π rp)))%nat /\ VerifyRange pp rp V = Ret nil_error.
Proof.
  destruct (C21_generated_params toy 1) as (pp & _ & Hwf & _); [lia|].
  destruct (prove_range_spec 1 pp (gadd (gmul (zr 11) (rp_F pp)) (msm [zr 5; zr (2 ^ 63 - 1)] (rp_Gs pp))) [zr 5; zr (2 ^ 63 - 1)] (zr 11) (toy_coins 2) (params_for_wf _ _ Hwf) (toy_coins_ok 2)) as (rp & _ & L1 & L2 & H);
    [done|repeat constructor; apply small_in_range; lia|reflexivity|].
  eexists pp, rp, _. split; [done|]. split; [lia|]. split; [lia|]. apply H. apply toy_range_challenges.
Qed.
