(** Fermat's little theorem for [Z], by permuting the residues 1..p-1.
    Support file: models no repository code. *)
From Coq Require Import ZArith Znumtheory Lia List Permutation.
Import ListNotations.
Local Open Scope Z_scope.

Lemma Zpow_mod_cong (a p n : Z) : 0 <= n -> 0 < p -> (a ^ n) mod p = ((a mod p) ^ n) mod p.
Proof.
  intros Hn Hp. assert (Hp0 : p <> 0) by lia. pattern n. apply natlike_ind; [reflexivity| |exact Hn].
  intros x Hx IH. rewrite !Z.pow_succ_r by assumption.
  rewrite (Z.mul_mod a (a ^ x) p Hp0), IH, Z.mul_mod_idemp_r by assumption. reflexivity.
Qed.

Definition lprod (l : list Z) : Z := fold_right Z.mul 1 l.

Lemma lprod_perm l l' : Permutation l l' -> lprod l = lprod l'.
Proof. unfold lprod. induction 1; simpl; lia. Qed.

Lemma lprod_scaled p a l : 0 < p ->
  lprod (map (fun x => (a * x) mod p) l) mod p = (a ^ Z.of_nat (length l) * lprod l) mod p.
Proof.
  intros Hp. assert (Hp0 : p <> 0) by lia. induction l as [|x l IH]; [reflexivity|].
  change (lprod (map (fun x => (a * x) mod p) (x :: l))) with ((a * x) mod p * lprod (map (fun x => (a * x) mod p) l)).
  rewrite Z.mul_mod, IH, Z.mod_mod, <- Z.mul_mod by assumption.
  change (length (x :: l)) with (S (length l)). rewrite Nat2Z.inj_succ, Z.pow_succ_r by lia.
  change (lprod (x :: l)) with (x * lprod l). f_equal. ring.
Qed.

Lemma prime_not_div_lprod p l : prime p -> (forall x, In x l -> ~ (p | x)) -> ~ (p | lprod l).
Proof.
  intros Hp. induction l as [|x l IH]; intros H Hd.
  - pose proof (prime_ge_2 _ Hp). apply Z.divide_1_r in Hd. lia.
  - change (lprod (x :: l)) with (x * lprod l) in Hd. apply prime_mult in Hd; [|exact Hp].
    destruct Hd as [Hd|Hd]; [apply (H x); [left; reflexivity|exact Hd]|].
    apply IH; [|exact Hd]. intros y Hy. apply H. right. exact Hy.
Qed.

Lemma NoDup_map_in (f : Z -> Z) l :
  (forall x y, In x l -> In y l -> f x = f y -> x = y) -> NoDup l -> NoDup (map f l).
Proof.
  intros Hf Hl. induction Hl as [|x l Hx Hl IH]; [constructor|]. simpl. constructor.
  - intros H. apply in_map_iff in H. destruct H as [y [E Hy]].
    assert (x = y) by (apply Hf; [left; reflexivity|right; exact Hy|symmetry; exact E]). subst. contradiction.
  - apply IH. intros y z Hy Hz. apply Hf; right; assumption.
Qed.

Theorem fermat_Z (p a : Z) : prime p -> ~ (p | a) -> (a ^ (p - 1)) mod p = 1.
Proof.
  intros Hp Ha. pose proof (prime_ge_2 _ Hp) as H2. assert (Hp0 : p <> 0) by lia.
  set (l := map Z.of_nat (seq 1 (Z.to_nat (p - 1)))).
  assert (Hl : forall x, In x l <-> 1 <= x < p).
  { intros x. unfold l. rewrite in_map_iff. split.
    - intros [n [<- Hn]]. apply in_seq in Hn. lia.
    - intros Hx. exists (Z.to_nat x). split; [lia|]. apply in_seq. lia. }
  assert (Hn : NoDup l).
  { unfold l. apply FinFun.Injective_map_NoDup; [intros x y; apply Nat2Z.inj|apply seq_NoDup]. }
  assert (Hlen : Z.of_nat (length l) = p - 1).
  { unfold l. rewrite map_length, seq_length. lia. }
  assert (Hnd : forall x, 1 <= x < p -> ~ (p | x)).
  { intros x Hx [k Hk]. assert (k <= 0 \/ 1 <= k) as [?|?] by lia; nia. }
  set (f := fun x => (a * x) mod p).
  assert (Hperm : Permutation (map f l) l).
  { apply NoDup_Permutation_bis.
    - apply NoDup_map_in; [|exact Hn].
      intros x y Hx Hy E. apply Hl in Hx, Hy. unfold f in E.
      assert (D : (p | a * (x - y))).
      { apply Z.mod_divide; [exact Hp0|]. replace (a * (x - y)) with (a * x - a * y) by ring.
        rewrite Zminus_mod, E, Z.sub_diag. apply Z.mod_0_l, Hp0. }
      apply prime_mult in D; [|exact Hp]. destruct D as [D|[k Hk]]; [contradiction|].
      assert (k = 0); nia.
    - rewrite map_length. apply le_n.
    - intros y Hy. apply in_map_iff in Hy. destruct Hy as [x [<- Hx]]. apply Hl in Hx. apply Hl.
      unfold f. pose proof (Z.mod_pos_bound (a * x) p ltac:(lia)).
      assert ((a * x) mod p <> 0); [|lia]. intros E. apply Z.mod_divide in E; [|exact Hp0].
      apply prime_mult in E; [|exact Hp]. destruct E as [E|E]; [contradiction|]. apply (Hnd x Hx E). }
  pose proof (lprod_perm _ _ Hperm) as E1. pose proof (lprod_scaled p a l ltac:(lia)) as E2.
  fold f in E2. rewrite E1, Hlen in E2.
  assert (D : (p | lprod l * (a ^ (p - 1) - 1))).
  { apply Z.mod_divide; [exact Hp0|]. replace (lprod l * (a ^ (p - 1) - 1)) with (a ^ (p - 1) * lprod l - lprod l) by ring.
    rewrite Zminus_mod, <- E2, Z.sub_diag. apply Z.mod_0_l, Hp0. }
  apply prime_mult in D; [|exact Hp]. destruct D as [D|[j Hj]].
  - exfalso. revert D. apply prime_not_div_lprod; [exact Hp|]. intros x Hx. apply Hnd, Hl, Hx.
  - replace (a ^ (p - 1)) with (1 + j * p) by lia. rewrite Z_mod_plus_full. apply Z.mod_small. lia.
Qed.
