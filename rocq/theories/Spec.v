(** Small specification vocabulary, independent of the model of the Go code: sums, inner products and
    multi-scalar multiplications of lists. *)
From Verif Require Export Curve.
Local Open Scope Zr_scope.

(** Σ l *)
Fixpoint zsum (l : list Zr) : Zr := match l with [] => 0 | x :: l => x + zsum l end.
(** ⟨a,b⟩ = Σ a_i·b_i *)
Fixpoint dot (a b : list Zr) : Zr :=
  match a, b with x :: a, y :: b => x * y + dot a b | _, _ => 0 end.
(** Σ l in a group *)
Fixpoint gsum {M : Grp} (l : list M) : M := match l with [] => gzero | x :: l => gadd x (gsum l) end.
(** Σ a_i ⋅ P_i *)
Fixpoint msm {M : Grp} (a : list Zr) (g : list M) : M :=
  match a, g with x :: a, P :: g => gadd (gmul x P) (msm a g) | _, _ => gzero end.
(** Σ e(P_i,Q_i) *)
Fixpoint pairsum {C : Curve} (p : list (G1 C)) (q : list (G2 C)) : GT C :=
  match p, q with P :: p, Q :: q => gadd (pair C P Q) (pairsum p q) | _, _ => gzero end.
(** element-wise operations *)
Definition vadd (a b : list Zr) : list Zr := zip_with zadd a b.
Definition vsub (a b : list Zr) : list Zr := zip_with zsub a b.
Definition vmul (a b : list Zr) : list Zr := zip_with zmul a b.
Definition vscale (x : Zr) (a : list Zr) : list Zr := zmul x <$> a.
Definition gvadd {M : Grp} (a b : list M) : list M := zip_with gadd a b.
Definition gvscale {M : Grp} (x : Zr) (a : list M) : list M := gmul x <$> a.
Definition gvmul {M : Grp} (v : list Zr) (a : list M) : list M := zip_with gmul v a.
Definition zeros (n : nat) : list Zr := replicate n 0.
Definition ones (n : nat) : list Zr := replicate n 1.

(** ** dot *)
Lemma dot_nil_r a : dot a [] = 0. Proof. destruct a; done. Qed.
Lemma dot_comm a b : dot a b = dot b a.
Proof. revert b; induction a as [|x a IH]; intros [|y b]; simpl; [done..|]. rewrite IH. ring. Qed.
Lemma dot_app a a' b b' : length a = length b -> dot (a ++ a') (b ++ b') = dot a b + dot a' b'.
Proof. revert b; induction a as [|x a IH]; intros [|y b] H; simpl in *; try discriminate; [ring|]. rewrite IH by lia. ring. Qed.
Lemma dot_vadd_l a a' b : length a = length a' -> dot (vadd a a') b = dot a b + dot a' b.
Proof.
  revert a' b; induction a as [|x a IH]; intros [|x' a'] b H; simpl in *; try discriminate; [ring|].
  destruct b as [|y b]; simpl; [ring|]. unfold vadd in *. rewrite IH by lia. ring.
Qed.
Lemma dot_vadd_r a b b' : length b = length b' -> dot a (vadd b b') = dot a b + dot a b'.
Proof. intros H. rewrite dot_comm, dot_vadd_l by done. rewrite (dot_comm b), (dot_comm b'). done. Qed.
Lemma dot_vsub_l a a' b : length a = length a' -> dot (vsub a a') b = dot a b - dot a' b.
Proof.
  revert a' b; induction a as [|x a IH]; intros [|x' a'] b H; simpl in *; try discriminate; [ring|].
  destruct b as [|y b]; simpl; [ring|]. unfold vsub in *. rewrite IH by lia. ring.
Qed.
Lemma dot_vsub_r a b b' : length b = length b' -> dot a (vsub b b') = dot a b - dot a b'.
Proof. intros H. rewrite dot_comm, dot_vsub_l by done. rewrite (dot_comm b), (dot_comm b'). done. Qed.
Lemma dot_vscale_l x a b : dot (vscale x a) b = x * dot a b.
Proof. revert b; induction a as [|y a IH]; intros [|z b]; simpl; try ring. unfold vscale in *. rewrite IH. ring. Qed.
Lemma dot_vscale_r x a b : dot a (vscale x b) = x * dot a b.
Proof. rewrite dot_comm, dot_vscale_l, dot_comm. done. Qed.
Lemma dot_vmul a b c : dot (vmul a b) c = dot a (vmul b c).
Proof.
  revert b c; induction a as [|x a IH]; intros [|y b] [|z c]; simpl; try done.
  unfold vmul in *. rewrite IH. ring.
Qed.
Lemma dot_zeros_l n b : dot (zeros n) b = 0.
Proof. revert b; induction n as [|n IH]; intros [|y b]; simpl; try done. unfold zeros in *. rewrite IH. ring. Qed.
Lemma dot_zeros_r n b : dot b (zeros n) = 0. Proof. rewrite dot_comm. apply dot_zeros_l. Qed.
Lemma dot_ones_l b : dot (ones (length b)) b = zsum b.
Proof. induction b as [|y b IH]; simpl; [done|]. unfold ones in *. rewrite IH. ring. Qed.
Lemma zsum_app a b : zsum (a ++ b) = zsum a + zsum b.
Proof. induction a as [|x a IH]; simpl; [ring|]. rewrite IH. ring. Qed.
Lemma zsum_vscale x a : zsum (vscale x a) = x * zsum a.
Proof. induction a as [|y a IH]; simpl; [ring|]. unfold vscale in *. rewrite IH. ring. Qed.
Lemma zsum_replicate n x : zsum (replicate n x) = zr (Z.of_nat n) * x.
Proof.
  induction n as [|n IH]; [change (zr (Z.of_nat 0)) with 0; cbn [replicate zsum]; ring|].
  cbn [replicate zsum]. rewrite IH, Nat2Z.inj_succ. unfold Z.succ. rewrite zr_add. change (zr 1) with 1. ring.
Qed.

(** ** lengths *)
Lemma vadd_length a b : length a = length b -> length (vadd a b) = length a.
Proof. intros H. unfold vadd. rewrite zip_with_length. lia. Qed.
Lemma vsub_length a b : length a = length b -> length (vsub a b) = length a.
Proof. intros H. unfold vsub. rewrite zip_with_length. lia. Qed.
Lemma vmul_length a b : length a = length b -> length (vmul a b) = length a.
Proof. intros H. unfold vmul. rewrite zip_with_length. lia. Qed.
Lemma vscale_length x a : length (vscale x a) = length a.
Proof. apply fmap_length. Qed.
Lemma gvadd_length {M : Grp} (a b : list M) : length a = length b -> length (gvadd a b) = length a.
Proof. intros H. unfold gvadd. rewrite zip_with_length. lia. Qed.
Lemma gvscale_length {M : Grp} x (a : list M) : length (gvscale x a) = length a.
Proof. apply fmap_length. Qed.
Lemma gvmul_length {M : Grp} v (a : list M) : length v = length a -> length (gvmul v a) = length a.
Proof. intros H. unfold gvmul. rewrite zip_with_length. lia. Qed.

(** ** msm *)
Section Msm.
  Context {M : Grp}.
  Implicit Types (g h : list M).
  Lemma msm_nil_r a : msm a (@nil M) = gzero. Proof. destruct a; done. Qed.
  Lemma msm_app a a' g g' : length a = length g -> msm (a ++ a') (g ++ g') = gadd (msm a g) (msm a' g').
  Proof.
    revert g; induction a as [|x a IH]; intros [|P g] H; simpl in *; try discriminate; [module|].
    rewrite IH by lia. module.
  Qed.
  Lemma msm_vadd a a' g : length a = length a' -> msm (vadd a a') g = gadd (msm a g) (msm a' g).
  Proof.
    revert a' g; induction a as [|x a IH]; intros [|x' a'] g H; simpl in *; try discriminate; [module|].
    destruct g as [|P g]; simpl; [module|]. unfold vadd in *. rewrite IH by lia. module.
  Qed.
  Lemma msm_vsub a a' g : length a = length a' -> msm (vsub a a') g = gadd (msm a g) (gopp (msm a' g)).
  Proof.
    revert a' g; induction a as [|x a IH]; intros [|x' a'] g H; simpl in *; try discriminate; [module|].
    destruct g as [|P g]; simpl; [module|]. unfold vsub in *. rewrite IH by lia. module.
  Qed.
  Lemma msm_vscale x a g : msm (vscale x a) g = gmul x (msm a g).
  Proof. revert g; induction a as [|y a IH]; intros [|z b]; simpl; try module. unfold vscale in *. rewrite IH. module. Qed.
  Lemma msm_gvadd a g h : length g = length h -> msm a (gvadd g h) = gadd (msm a g) (msm a h).
  Proof.
    revert g h; induction a as [|x a IH]; intros [|P g] [|Q h] H; simpl in *; try discriminate; try module.
    unfold gvadd in *. rewrite IH by lia. module.
  Qed.
  Lemma msm_gvscale x a g : msm a (gvscale x g) = gmul x (msm a g).
  Proof. revert g; induction a as [|y a IH]; intros [|z b]; simpl; try module. unfold gvscale in *. rewrite IH. module. Qed.
  Lemma msm_gvmul a v g : msm a (gvmul v g) = msm (vmul a v) g.
  Proof.
    revert v g; induction a as [|x a IH]; intros [|y v] [|P g]; simpl; try done.
    unfold gvmul, vmul in *. rewrite IH. module.
  Qed.
  Lemma msm_zeros n g : msm (zeros n) g = gzero.
  Proof. revert g; induction n as [|n IH]; intros [|P g]; simpl; try done. unfold zeros in *. rewrite IH. module. Qed.
  Lemma gsum_app (a b : list M) : gsum (a ++ b) = gadd (gsum a) (gsum b).
  Proof. induction a as [|x a IH]; simpl; [module|]. rewrite IH. module. Qed.
  Lemma gsum_gvmul v g : gsum (gvmul v g) = msm v g.
  Proof. revert g; induction v as [|x v IH]; intros [|P g]; simpl; try done. unfold gvmul in *. rewrite IH. done. Qed.
  Lemma gsum_gvscale x g : gsum (gvscale x g) = gmul x (gsum g).
  Proof. induction g as [|P g IH]; simpl; [module|]. unfold gvscale in *. rewrite IH. module. Qed.
  Lemma msm_ones g : msm (ones (length g)) g = gsum g.
  Proof. induction g as [|P g IH]; simpl; [done|]. unfold ones in *. rewrite IH. module. Qed.
  Lemma msm_firstn a g : msm a g = msm (take (length g) a) g.
  Proof. revert a; induction g as [|P g IH]; intros [|x a]; simpl; try done. rewrite <- IH. done. Qed.
  (** exponents of a common base: Σ a_i ⋅ (e_i ⋅ B) = ⟨a,e⟩ ⋅ B *)
  Lemma msm_common_base a e (B : M) : msm a ((fun x => gmul x B) <$> e) = gmul (dot a e) B.
  Proof. revert e; induction a as [|x a IH]; intros [|y e]; simpl; try module. rewrite IH. module. Qed.
End Msm.

Lemma pairsum_msm {C : Curve} (p : list (G1 C)) (e : list Zr) (Q : G2 C) :
  pairsum p ((fun x => gmul x Q) <$> e) = pair C (msm e p) Q.
Proof.
  revert e; induction p as [|P p IH]; intros [|x e]; simpl; try (symmetry; apply pair_0_l).
  rewrite IH, pair_add_l, pair_mul_l, pair_mul_r. done.
Qed.
Lemma pairsum_app {C : Curve} (p p' : list (G1 C)) (q q' : list (G2 C)) :
  length p = length q -> pairsum (p ++ p') (q ++ q') = gadd (pairsum p q) (pairsum p' q').
Proof.
  revert q; induction p as [|P p IH]; intros [|Q q] H; simpl in *; try discriminate; [module|].
  rewrite IH by lia. module.
Qed.

(** ** halves: a list of even length is [take n l ++ drop n l] *)
Lemma dot_split n a b : dot a b = dot (take n a) (take n b) + dot (drop n a) (drop n b).
Proof.
  revert a b; induction n as [|n IH]; intros a b.
  - rewrite !take_0, !drop_0. simpl. ring.
  - destruct a as [|x a], b as [|y b]; simpl; try ring.
    + rewrite dot_nil_r. ring.
    + rewrite (IH a b). ring.
Qed.
Lemma msm_split {M : Grp} n a (g : list M) : msm a g = gadd (msm (take n a) (take n g)) (msm (drop n a) (drop n g)).
Proof.
  revert a g; induction n as [|n IH]; intros a g.
  - rewrite !take_0, !drop_0. simpl. module.
  - destruct a as [|x a], g as [|P g]; simpl; try module.
    + rewrite msm_nil_r. module.
    + rewrite (IH a g). module.
Qed.
