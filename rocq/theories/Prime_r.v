(** Primality of the BN254 group order [r] (the modulus hard-wired limb by limb in
    common/math.go:483-492), by Pocklington certificates. *)
From Coq Require Import ZArith Znumtheory Lia List.
From Verif Require Import Fermat.
Import ListNotations.
Local Open Scope Z_scope.
Local Open Scope bool_scope.

(** The group order; its four 64-bit limbs are the constants of common/math.go:487-492. *)
Definition r : Z :=
  21888242871839275222246405745257275088548364400416034343698204186575808495617.

(** Fast modular exponentiation. *)
Fixpoint powmod_pos (b : Z) (e : positive) (m : Z) : Z :=
  match e with
  | xH => b mod m
  | xO e' => let t := powmod_pos b e' m in (t * t) mod m
  | xI e' => let t := powmod_pos b e' m in (((t * t) mod m) * b) mod m
  end.
Definition powmod (b e m : Z) : Z :=
  match e with
  | Zpos p => powmod_pos b p m
  | _ => 1 mod m
  end.

Lemma powmod_pos_spec b e m : 0 < m -> powmod_pos b e m = (b ^ Zpos e) mod m.
Proof.
  intros Hm. induction e as [e IH|e IH|]; cbn [powmod_pos].
  - rewrite IH. rewrite Pos2Z.inj_xI.
    replace (b ^ (2 * Z.pos e + 1)) with ((b ^ Z.pos e * b ^ Z.pos e) * b).
    + rewrite <- (Z.mul_mod (b ^ Z.pos e)) by lia.
      rewrite Z.mul_mod_idemp_l by lia. reflexivity.
    + rewrite Z.pow_add_r, Z.pow_1_r by lia. rewrite <- Z.pow_add_r by lia.
      f_equal. f_equal. lia.
  - rewrite IH. rewrite Pos2Z.inj_xO. rewrite <- Z.mul_mod by lia.
    rewrite <- Z.pow_add_r by lia. f_equal. f_equal. lia.
  - rewrite Z.pow_1_r. reflexivity.
Qed.

Lemma powmod_spec b e m : 0 < m -> 0 <= e -> powmod b e m = (b ^ e) mod m.
Proof.
  intros Hm He. destruct e as [|e|e]; cbn [powmod]; [reflexivity| |lia].
  apply powmod_pos_spec; exact Hm.
Qed.

(** Trial division for small numbers. *)
Fixpoint no_div (n d : Z) (k : nat) : bool :=
  match k with
  | O => d * d >? n
  | S k' => if d * d >? n then true else if n mod d =? 0 then false else no_div n (d + 1) k'
  end.
Definition small_prime (n : Z) : bool := (n >? 1) && no_div n 2 200.

Lemma no_div_spec n k : forall d, 2 <= d -> (forall x, 2 <= x < d -> n mod x <> 0) ->
  no_div n d k = true -> forall x, 2 <= x -> x * x <= n -> n mod x <> 0.
Proof.
  induction k as [|k IH]; intros d Hd Hlt H x Hx Hxx; cbn [no_div] in H.
  - apply Z.gtb_lt in H. apply Hlt. nia.
  - destruct (d * d >? n) eqn:E.
    + apply Z.gtb_lt in E. apply Hlt. nia.
    + destruct (n mod d =? 0) eqn:E2; [discriminate|].
      apply Z.eqb_neq in E2. apply (IH (d + 1)); try assumption; [lia|].
      intros y Hy. destruct (Z.eq_dec y d) as [->|]; [assumption|]. apply Hlt. lia.
Qed.

Lemma prime_by_small_divisors n : 1 < n ->
  (forall p, prime p -> (p | n) -> p * p > n) -> prime n.
Proof.
  intros Hn H. apply prime_alt. split; [exact Hn|].
  intros d Hd Hdiv.
  assert (G : forall m, 0 <= m -> forall d, d <= m -> 1 < d < n -> (d | n) -> False).
  { intros m Hm. pattern m. apply natlike_ind; [lia| |exact Hm].
    intros x Hx IHx e He1 He2 He3.
    destruct (prime_dec e) as [Hp|Hnp].
    - destruct He3 as [k Hk].
      pose proof (H e Hp (ex_intro _ k Hk)) as Hgt.
      assert (1 < k < e) by nia.
      apply (IHx k); [lia|lia|]. exists e. lia.
    - destruct (not_prime_divide e ltac:(lia) Hnp) as [y [Hy Hye]].
      apply (IHx y); [lia|lia|]. apply Z.divide_trans with e; assumption. }
  apply (G d ltac:(lia) d); [lia|lia|assumption].
Qed.

Lemma small_prime_spec n : small_prime n = true -> prime n.
Proof.
  unfold small_prime. intros H. apply andb_prop in H. destruct H as [H1 H2].
  apply Z.gtb_lt in H1. apply prime_by_small_divisors; [lia|].
  intros p Hp Hd. destruct (Z_lt_le_dec n (p * p)) as [|Hle]; [lia|].
  exfalso. pose proof (prime_ge_2 _ Hp).
  apply (no_div_spec n 200 2 ltac:(lia) ltac:(intros; lia) H2 p ltac:(lia) Hle).
  apply Zdivide_mod. exact Hd.
Qed.

Lemma pow_mod_1_mul b n k p : 1 < p -> 0 <= n -> 0 <= k -> (b ^ n) mod p = 1 -> (b ^ (n * k)) mod p = 1.
Proof.
  intros Hp Hn Hk H. rewrite Z.pow_mul_r by lia. rewrite Zpow_mod_cong by lia. rewrite H.
  rewrite Z.pow_1_l by lia. apply Z.mod_small; lia.
Qed.

(** Core step of Pocklington's criterion. *)
Lemma pock_step N p q a : prime p -> (p | N) -> 1 < N -> prime q -> (q | N - 1) ->
  (a ^ (N - 1)) mod N = 1 -> Z.gcd (powmod a ((N - 1) / q) N - 1) N = 1 -> (q | p - 1).
Proof.
  intros Hp HpN HN Hq [R HR] Ha Hg.
  pose proof (prime_ge_2 _ Hp) as Hp2. pose proof (prime_ge_2 _ Hq) as Hq2.
  assert (HdivR : (N - 1) / q = R) by (rewrite HR; apply Z.div_mul; lia).
  rewrite HdivR in Hg. assert (HR0 : 0 <= R) by nia.
  rewrite powmod_spec in Hg by lia.
  set (b := a ^ R) in *.
  assert (modp : forall x y, x mod N = y -> y < p -> 0 <= y -> x mod p = y).
  { intros x y Hxy Hyp Hy0. destruct HpN as [k Hk].
    rewrite (Z.div_mod x N) by lia. rewrite Hxy, Hk.
    replace (k * p * (x / (k * p)) + y) with (y + (k * (x / (k * p))) * p) by ring.
    rewrite Z_mod_plus_full. apply Z.mod_small; lia. }
  assert (Hbq : (b ^ q) mod p = 1).
  { unfold b. rewrite <- Z.pow_mul_r by lia. rewrite <- HR. apply modp; [exact Ha|lia|lia]. }
  assert (Hb1 : b mod p <> 1).
  { intros Hc.
    assert (Hpd : (p | b mod N - 1)).
    { destruct HpN as [k Hk]. 
      assert (E1 : b = p * (b / p) + 1) by (rewrite <- Hc; apply Z.div_mod; lia).
      assert (E2 : b = N * (b / N) + b mod N) by (apply Z.div_mod; lia).
      exists (b / p - k * (b / N)). rewrite Hk in E2 at 1. rewrite Hk. rewrite Hk in E2. nia. }
    assert (Hd : (p | Z.gcd (b mod N - 1) N)) by (apply Z.gcd_greatest; [exact Hpd|exact HpN]).
    rewrite Hg in Hd. apply Z.divide_1_r_nonneg in Hd; lia. }
  assert (Hpb : ~ (p | b)).
  { intros Hd. assert (Hz : (p | b ^ q)).
    { replace q with (Z.succ (q - 1)) by lia. rewrite Z.pow_succ_r by lia.
      apply Z.divide_mul_l. exact Hd. }
    apply Zdivide_mod in Hz. lia. }
  destruct (Zdivide_dec q (p - 1)) as [Hyes|Hno]; [exact Hyes|exfalso].
  pose proof (prime_rel_prime q Hq (p - 1) Hno) as Hrel.
  destruct (rel_prime_bezout _ _ Hrel) as [u v Huv].
  pose proof (fermat_Z p b Hp Hpb) as Hf.
  assert (p = 2 \/ 2 < p) as [E|Hp3] by lia.
  { subst p. rewrite <- Z.mod_mod in Hb1 by lia.
    assert (b mod 2 <> 0) by (intros C; apply Hpb; apply Zmod_divide; lia).
    pose proof (Z.mod_pos_bound b 2 ltac:(lia)). 
    rewrite Z.mod_mod in Hb1 by lia. lia. }
  set (u' := u mod (p - 1)).
  pose proof (Z.mod_pos_bound u (p - 1) ltac:(lia)) as Hu'. fold u' in Hu'.
  pose proof (Z.div_mod u (p - 1) ltac:(lia)) as Hud. fold u' in Hud.
  set (k := - v - q * (u / (p - 1))).
  assert (Hk : u' * q = 1 + k * (p - 1)) by (unfold k; nia).
  assert (0 <= k) by nia.
  assert (H1 : (b ^ (q * u')) mod p = 1) by (apply pow_mod_1_mul; try lia; exact Hbq).
  replace (q * u') with (1 + (p - 1) * k) in H1 by lia.
  rewrite Z.pow_add_r, Z.pow_1_r in H1 by nia.
  rewrite Z.mul_mod in H1 by lia.
  rewrite (pow_mod_1_mul b (p - 1) k p) in H1 by (try lia; exact Hf).
  rewrite Z.mul_1_r, Z.mod_mod in H1 by lia. contradiction.
Qed.

Lemma prod_divides (l : list Z) x : NoDup l -> Forall prime l -> Forall (fun q => (q | x)) l ->
  (fold_right Z.mul 1 l | x) /\ (forall q, prime q -> ~ In q l -> rel_prime q (fold_right Z.mul 1 l)).
Proof.
  induction l as [|a l IH]; intros Hnd Hp Hd; cbn [fold_right].
  - split; [apply Z.divide_1_l|]. intros. apply rel_prime_sym, rel_prime_1.
  - inversion Hnd as [|? ? Ha Hnd']; subst. inversion Hp as [|? ? Hpa Hpl]; subst.
    inversion Hd as [|? ? Hda Hdl]; subst.
    destruct (IH Hnd' Hpl Hdl) as [IH1 IH2]. split.
    + destruct IH1 as [k Hk]. assert (Hak : (a | k)).
      { apply Gauss with (fold_right Z.mul 1 l); [rewrite Z.mul_comm, <- Hk; exact Hda|].
        apply IH2; assumption. }
      destruct Hak as [j Hj]. exists j. rewrite Hk, Hj. ring.
    + intros q Hq Hni. apply rel_prime_mult.
      * apply prime_rel_prime; [exact Hq|]. intros Hqa.
        apply prime_div_prime in Hqa; [|assumption|assumption]. subst. apply Hni. left. reflexivity.
      * apply IH2; [assumption|]. intros C. apply Hni. right. exact C.
Qed.

Fixpoint nodupb (l : list Z) : bool :=
  match l with [] => true | x :: l => negb (existsb (Z.eqb x) l) && nodupb l end.
Lemma nodupb_spec l : nodupb l = true -> NoDup l.
Proof.
  induction l as [|x l IH]; cbn [nodupb]; intros H; [constructor|].
  apply andb_prop in H. destruct H as [H1 H2]. constructor; [|apply IH, H2].
  intros C. rewrite (proj2 (existsb_exists _ _)) in H1; [discriminate|].
  exists x. split; [exact C|apply Z.eqb_refl].
Qed.

Definition pock_check (N a : Z) (qs : list Z) : bool :=
  (1 <? N) && nodupb qs && (fold_right Z.mul 1 qs * fold_right Z.mul 1 qs >? N)
  && (powmod a (N - 1) N =? 1)
  && forallb (fun q => ((N - 1) mod q =? 0) && (Z.gcd (powmod a ((N - 1) / q) N - 1) N =? 1)) qs.

Theorem pocklington N a qs : Forall prime qs -> pock_check N a qs = true -> prime N.
Proof.
  intros Hqs H. unfold pock_check in H.
  repeat (apply andb_prop in H; destruct H as [H ?]).
  apply Z.ltb_lt in H.
  match goal with H : nodupb _ = true |- _ => apply nodupb_spec in H end.
  match goal with H : (_ >? _) = true |- _ => apply Z.gtb_lt in H end.
  match goal with H : (powmod _ _ _ =? 1) = true |- _ => apply Z.eqb_eq in H; rewrite powmod_spec in H by lia end.
  match goal with H : forallb _ _ = true |- _ => rewrite forallb_forall in H; rename H into Hall end.
  apply prime_by_small_divisors; [assumption|]. intros p Hp HpN.
  assert (Hdiv : Forall (fun q => (q | p - 1)) qs).
  { apply Forall_forall. intros q Hq. specialize (Hall q Hq). apply andb_prop in Hall.
    destruct Hall as [Hm Hg]. apply Z.eqb_eq in Hm, Hg.
    rewrite Forall_forall in Hqs. pose proof (Hqs q Hq) as Hpq. pose proof (prime_ge_2 _ Hpq).
    apply (pock_step N p q a); try assumption. apply Zmod_divide; [lia|assumption]. }
  destruct (prod_divides qs (p - 1)) as [[k Hk] _]; [assumption..|].
  set (F := fold_right Z.mul 1 qs) in *.
  pose proof (prime_ge_2 _ Hp).
  assert (0 < F). { assert (F <> 0) by (intros C; rewrite C in *; lia). assert (0 <= F); [|lia].
    unfold F. clear - Hqs. induction Hqs as [|q qs Hq Hqs IH]; cbn [fold_right]; [lia|].
    pose proof (prime_ge_2 _ Hq). nia. }
  assert (0 < k) by (apply (Zmult_lt_0_reg_r F k); lia).
  assert (F * 1 <= F * k) by (apply Zmult_le_compat_l; lia).
  assert (F * F <= (p - 1) * (p - 1)) by (apply Zmult_le_compat; lia). nia.
Qed.

Ltac sprime := apply small_prime_spec; vm_compute; reflexivity.
Ltac pock a qs := apply (pocklington _ a qs); [|vm_cast_no_check (eq_refl true)]; repeat first [apply Forall_nil | apply Forall_cons].

Lemma prime_93001 : prime 93001. Proof. pock 2 [31; 5; 3]; sprime. Qed.
Lemma prime_12048837557 : prime 12048837557.
Proof. pock 2 [93001; 661]; [exact prime_93001|sprime]. Qed.
Lemma prime_5156902474397 : prime 5156902474397.
Proof. pock 2 [12048837557]; exact prime_12048837557. Qed.
Lemma prime_1670836401704629 : prime 1670836401704629.
Proof. pock 2 [5156902474397]; exact prime_5156902474397. Qed.

(** The same criterion for two factors p, q, sharing the exponentiations. *)
Definition pock2_check (N a p q : Z) : bool :=
  let m := (N - 1) / (p * q) in
  let b := powmod a m N in
  let bp := powmod b p N in
  let bq := powmod b q N in
  (1 <? N) && (0 <=? m) && (m * (p * q) =? N - 1) && negb (p =? q) && ((p * q) * (p * q) >? N)
  && (powmod bq p N =? 1) && (Z.gcd (bp - 1) N =? 1) && (Z.gcd (bq - 1) N =? 1).

Lemma powmod_powmod a m p N : 1 < N -> 0 <= m -> 0 <= p -> powmod (powmod a m N) p N = powmod a (m * p) N.
Proof.
  intros HN Hm Hp. rewrite !powmod_spec by lia. rewrite Z.pow_mul_r by lia.
  symmetry. apply Zpow_mod_cong; lia.
Qed.

Theorem pocklington2 N a p q : prime p -> prime q -> pock2_check N a p q = true -> prime N.
Proof.
  intros Pp Pq H. unfold pock2_check in H. set (m := (N - 1) / (p * q)) in *. cbv zeta in H.
  repeat (apply andb_prop in H; destruct H as [H ?]).
  apply Z.ltb_lt in H.
  match goal with H : (0 <=? m) = true |- _ => apply Z.leb_le in H; rename H into Hm end.
  match goal with H : (m * _ =? _) = true |- _ => apply Z.eqb_eq in H; rename H into Hmpq end.
  match goal with H : negb _ = true |- _ => apply Bool.negb_true_iff, Z.eqb_neq in H; rename H into Hpq end.
  match goal with H : (_ >? _) = true |- _ => apply Z.gtb_lt in H; rename H into Hbig end.
  pose proof (prime_ge_2 _ Pp) as Hp2. pose proof (prime_ge_2 _ Pq) as Hq2.
  rewrite !powmod_powmod in * by nia.
  match goal with H : (powmod _ _ _ =? 1) = true |- _ => apply Z.eqb_eq in H; rename H into Hone end.
  match goal with H : (Z.gcd (powmod a (m * p) N - 1) N =? 1) = true |- _ => apply Z.eqb_eq in H; rename H into Hgp end.
  match goal with H : (Z.gcd (powmod a (m * q) N - 1) N =? 1) = true |- _ => apply Z.eqb_eq in H; rename H into Hgq end.
  rewrite powmod_spec in Hone by nia. replace (m * (q * p)) with (N - 1) in Hone by lia.
  assert (Eq : (N - 1) / q = m * p) by (rewrite <- Hmpq; replace (m * (p * q)) with (m * p * q) by ring; apply Z.div_mul; lia).
  assert (Ep : (N - 1) / p = m * q) by (rewrite <- Hmpq; replace (m * (p * q)) with (m * q * p) by ring; apply Z.div_mul; lia).
  apply prime_by_small_divisors; [assumption|]. intros s Hs HsN.
  assert (Dq : (q | s - 1)).
  { apply (pock_step N s q a); try assumption; [exists (m * p); lia|]. rewrite Eq. exact Hgp. }
  assert (Dp : (p | s - 1)).
  { apply (pock_step N s p a); try assumption; [exists (m * q); lia|]. rewrite Ep. exact Hgq. }
  destruct (prod_divides [p; q] (s - 1)) as [[k Hk] _].
  { constructor; [intros [C|[]]; congruence|]. constructor; [intros []|constructor]. }
  { apply Forall_cons; [assumption|apply Forall_cons; [assumption|apply Forall_nil]]. }
  { apply Forall_cons; [assumption|apply Forall_cons; [assumption|apply Forall_nil]]. }
  cbn [fold_right] in Hk. rewrite Z.mul_1_r in Hk. pose proof (prime_ge_2 _ Hs).
  set (F := p * q) in *. assert (0 < F) by nia.
  assert (0 < k) by (apply (Zmult_lt_0_reg_r F k); lia).
  assert (F * 1 <= F * k) by (apply Zmult_le_compat_l; lia).
  assert (F * F <= (s - 1) * (s - 1)) by (apply Zmult_le_compat; lia). nia.
Qed.

Lemma prime_639533339 : prime 639533339. Proof. pock 2 [1637; 853]; sprime. Qed.
Lemma prime_65865678001877903 : prime 65865678001877903.
Proof. pock 2 [639533339]; exact prime_639533339. Qed.
Lemma prime_13818364434197438864469338081 : prime 13818364434197438864469338081.
Proof. pock 2 [65865678001877903]; exact prime_65865678001877903. Qed.

Theorem prime_r : prime r.
Proof.
  apply (pocklington2 r 2 13818364434197438864469338081 1670836401704629).
  - exact prime_13818364434197438864469338081.
  - exact prime_1670836401704629.
  - vm_cast_no_check (eq_refl true).
Qed.
