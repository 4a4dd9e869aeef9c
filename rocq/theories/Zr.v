(** The scalar field Zr = Z/r.  Models mathlib's *math.Zr for curve BN254 (math.Curves[1],
    common/math.go:17) as canonical residues; Plus/Mul/ModSub/ModAdd/PowMod/InvModP are arithmetic
    modulo r (mathlib itself is not in /repo: this is part of the trusted base). InvModP(0) leaves 0
    (big.Int.ModInverse leaves its receiver unchanged when there is no inverse). *)
From Verif Require Export Base.
From Coq Require Import Eqdep_dec Znumtheory.
From Coq Require Export Field.
From Verif Require Import Fermat.
From Verif Require Export Prime_r.

Definition canon (z : Z) : bool := ((0 <=? z) && (z <? r))%Z.
Record Zr : Type := mkZr { zv : Z; zv_ok : canon zv = true }.

Lemma r_pos : (0 < r)%Z. Proof. reflexivity. Qed.
Lemma r_gt1 : (1 < r)%Z. Proof. reflexivity. Qed.

Lemma canon_mod z : canon (z mod r) = true.
Proof. unfold canon. pose proof (Z.mod_pos_bound z r r_pos). lia. Qed.

Definition zr (z : Z) : Zr := mkZr (z mod r) (canon_mod z).

Lemma Zr_eq (a b : Zr) : zv a = zv b -> a = b.
Proof.
  destruct a as [a Ha], b as [b Hb]; simpl; intros ->.
  f_equal. apply UIP_dec. apply Bool.bool_dec.
Qed.

Lemma zv_range (a : Zr) : (0 <= zv a < r)%Z.
Proof. destruct a as [z Hz]; simpl. unfold canon in Hz. lia. Qed.

Lemma zv_zr z : zv (zr z) = (z mod r)%Z. Proof. reflexivity. Qed.
Lemma zv_zr_small z : (0 <= z < r)%Z -> zv (zr z) = z.
Proof. intros H. rewrite zv_zr. apply Z.mod_small. exact H. Qed.
Lemma zr_zv a : zr (zv a) = a.
Proof. apply Zr_eq. rewrite zv_zr. apply Z.mod_small, zv_range. Qed.

Definition z0 : Zr := zr 0.
Definition z1 : Zr := zr 1.
Definition zadd (a b : Zr) : Zr := zr (zv a + zv b).
Definition zmul (a b : Zr) : Zr := zr (zv a * zv b).
Definition zopp (a : Zr) : Zr := zr (- zv a).
Definition zsub (a b : Zr) : Zr := zr (zv a - zv b).
Definition zeqb (a b : Zr) : bool := (zv a =? zv b)%Z.
(** InvModP: x^(r-2), i.e. the inverse of x, and 0 for 0. *)
Definition zinv (a : Zr) : Zr := zr (powmod (zv a) (r - 2) r).
Definition zdiv (a b : Zr) : Zr := zmul a (zinv b).
(** PowMod with a non-negative exponent. *)
Fixpoint zpow (a : Zr) (n : nat) : Zr :=
  match n with O => z1 | S n => zmul a (zpow a n) end.

Declare Scope Zr_scope.
Delimit Scope Zr_scope with zr.
Bind Scope Zr_scope with Zr.
Infix "+" := zadd : Zr_scope.
Infix "*" := zmul : Zr_scope.
Infix "-" := zsub : Zr_scope.
Infix "/" := zdiv : Zr_scope.
Notation "- x" := (zopp x) : Zr_scope.
Infix "^" := zpow : Zr_scope.
Notation "0" := z0 : Zr_scope.
Notation "1" := z1 : Zr_scope.
Local Open Scope Zr_scope.

Global Instance Zr_eq_dec : EqDecision Zr.
Proof.
  intros a b. destruct (decide (zv a = zv b)) as [E|E].
  - left. apply Zr_eq, E.
  - right. intros ->. apply E. reflexivity.
Defined.
Global Instance Zr_inhabited : Inhabited Zr := populate z0.

Lemma zeqb_eq a b : zeqb a b = true <-> a = b.
Proof. unfold zeqb. rewrite Z.eqb_eq. split; [apply Zr_eq|intros ->; reflexivity]. Qed.
Lemma zeqb_refl a : zeqb a a = true. Proof. apply zeqb_eq. reflexivity. Qed.
Lemma zeqb_neq a b : zeqb a b = false <-> a <> b.
Proof. rewrite <- zeqb_eq. destruct (zeqb a b); split; congruence. Qed.

Lemma zr_mod z : zr (z mod r) = zr z.
Proof. apply Zr_eq. rewrite !zv_zr. apply Z.mod_mod. discriminate. Qed.
Lemma zr_eq_mod a b : (a mod r = b mod r)%Z -> zr a = zr b.
Proof. intros H. apply Zr_eq. rewrite !zv_zr. exact H. Qed.

Lemma zr_add a b : zr (a + b) = zr a + zr b.
Proof. apply zr_eq_mod. rewrite !zv_zr. rewrite <- Zplus_mod. reflexivity. Qed.
Lemma zr_mul a b : zr (a * b) = zr a * zr b.
Proof. apply zr_eq_mod. rewrite !zv_zr. rewrite <- Zmult_mod. reflexivity. Qed.
Lemma zr_sub a b : zr (a - b) = zr a - zr b.
Proof. apply zr_eq_mod. rewrite !zv_zr. rewrite <- Zminus_mod. reflexivity. Qed.
Lemma zr_opp a : zr (- a) = - zr a.
Proof.
  apply zr_eq_mod. rewrite !zv_zr.
  change (- a)%Z with (0 - a)%Z. change (- (a mod r))%Z with (0 - a mod r)%Z.
  rewrite Zminus_mod_idemp_r. reflexivity.
Qed.

Ltac zr_to_Z := apply Zr_eq; unfold zadd, zmul, zopp, zsub, z0, z1; rewrite ?zv_zr.

Lemma zr_ring_theory : ring_theory z0 z1 zadd zmul zsub zopp eq.
Proof.
  constructor; intros.
  - rewrite <- (zr_zv x) at 2. unfold zadd. f_equal.
  - unfold zadd. f_equal. lia.
  - rewrite <- (zr_zv x), <- (zr_zv y), <- (zr_zv z). rewrite <- !zr_add. f_equal. lia.
  - rewrite <- (zr_zv x) at 2. unfold zmul. change (zv 1) with 1%Z. f_equal. lia.
  - unfold zmul. f_equal. lia.
  - rewrite <- (zr_zv x), <- (zr_zv y), <- (zr_zv z). rewrite <- !zr_mul. f_equal. lia.
  - rewrite <- (zr_zv x), <- (zr_zv y), <- (zr_zv z). rewrite <- !zr_add, <- !zr_mul, <- zr_add. f_equal. lia.
  - rewrite <- (zr_zv x), <- (zr_zv y). rewrite <- zr_sub, <- zr_opp, <- zr_add. f_equal.
  - rewrite <- (zr_zv x). rewrite <- zr_opp, <- zr_add. unfold z0. f_equal. lia.
Qed.

Lemma z1_neq_0 : 1 <> 0.
Proof. intros H. apply (f_equal zv) in H. vm_compute in H. discriminate. Qed.

Lemma zinv_l a : a <> 0 -> zinv a * a = 1.
Proof.
  intros Ha. apply Zr_eq. unfold zmul, zinv. rewrite !zv_zr.
  rewrite powmod_spec by (try apply r_pos; discriminate).
  rewrite Z.mod_mod by discriminate. rewrite Z.mul_mod_idemp_l by discriminate.
  rewrite Z.mul_comm. rewrite <- Z.pow_succ_r by discriminate.
  change (Z.succ (r - 2)) with (r - 1)%Z.
  rewrite fermat_Z; [reflexivity|exact prime_r|].
  intros [k Hk]. apply Ha. apply Zr_eq. change (zv 0) with 0%Z.
  pose proof (zv_range a). assert (k = 0)%Z; [|lia]. nia.
Qed.

Lemma zr_field_theory : field_theory z0 z1 zadd zmul zsub zopp zdiv zinv eq.
Proof.
  constructor.
  - exact zr_ring_theory.
  - exact z1_neq_0.
  - reflexivity.
  - exact zinv_l.
Qed.

Add Field Zr_field : zr_field_theory.

Lemma zmul_0_l a : 0 * a = 0. Proof. ring. Qed.
Lemma zmul_0_r a : a * 0 = 0. Proof. ring. Qed.

Lemma zinv_0 : zinv 0 = 0.
Proof.
  unfold zinv. apply Zr_eq. rewrite zv_zr. rewrite powmod_spec by (try apply r_pos; discriminate).
  change (zv 0) with 0%Z. rewrite Z.pow_0_l by reflexivity. reflexivity.
Qed.

Lemma zinv_r a : a <> 0 -> a * zinv a = 1.
Proof. intros H. rewrite <- (zinv_l a H). ring. Qed.

Lemma zmul_eq_0 a b : a * b = 0 -> a = 0 \/ b = 0.
Proof.
  intros H. destruct (decide (a = 0)) as [|Ha]; [left; assumption|right].
  rewrite <- (zinv_l a Ha) in * || idtac.
  assert (E : zinv a * (a * b) = b) by (field; exact Ha).
  rewrite H in E. rewrite <- E. ring.
Qed.

Lemma zmul_neq_0 a b : a <> 0 -> b <> 0 -> a * b <> 0.
Proof. intros Ha Hb H. destruct (zmul_eq_0 a b H); contradiction. Qed.

Lemma zinv_neq_0 a : a <> 0 -> zinv a <> 0.
Proof. intros Ha H. pose proof (zinv_l a Ha) as E. rewrite H in E. apply z1_neq_0. rewrite <- E. ring. Qed.

Lemma zpow_add a m n : a ^ (m + n) = a ^ m * a ^ n.
Proof. induction m as [|m IH]; cbn [zpow Nat.add]; [ring|]. rewrite IH. ring. Qed.

Lemma zpow_neq_0 a n : a <> 0 -> a ^ n <> 0.
Proof. intros H. induction n as [|n IH]; cbn [zpow]; [apply z1_neq_0|apply zmul_neq_0; assumption]. Qed.

Lemma zsub_eq_0 a b : a - b = 0 -> a = b.
Proof. intros H. transitivity (a - b + b); [ring|rewrite H; ring]. Qed.

Lemma zr_inj_small a b : (0 <= a < r)%Z -> (0 <= b < r)%Z -> zr a = zr b -> a = b.
Proof. intros Ha Hb H. apply (f_equal zv) in H. rewrite !zv_zr_small in H by assumption. exact H. Qed.

Lemma zv_zmul a b : zv (a * b) = ((zv a * zv b) mod r)%Z.
Proof. reflexivity. Qed.

(** Tactics must not unfold the arithmetic (no effect on the kernel). *)
Global Opaque zadd zmul zopp zsub zinv zr.
