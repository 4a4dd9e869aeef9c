(** What a message reveals about the secret it was made from: specification and discrete logarithms. *)
From Coq Require Import ConstructiveEpsilon.
From Verif Require Export Spec.
Local Open Scope Zr_scope.

(** A prover is a function from its random values to its message.  [same_messages shape good run run']: there is a
    one-to-one correspondence between the random values (of the right shape) with which [run] sends a message π and
    those with which [run'] sends the same π, for every good message π.  If the random values are uniform, every
    good message is equally likely to come from either, whatever the computing power of the observer. *)
Definition same_messages {K Π : Type} (shape : K -> Prop) (good : Π -> Prop) (run run' : K -> res Π) : Prop :=
  exists φ ψ : K -> K, forall κ π, shape κ -> good π ->
    (run κ = Ret π -> shape (φ κ) /\ run' (φ κ) = Ret π /\ ψ (φ κ) = κ) /\
    (run' κ = Ret π -> shape (ψ κ) /\ run (ψ κ) = Ret π /\ φ (ψ κ) = κ).

(** The correspondence may use the message itself. *)
Lemma same_messages_intro {K Π : Type} (shape : K -> Prop) (good : Π -> Prop) (run run' : K -> res Π) (T T' : Π -> K -> K) :
  (forall κ π, shape κ -> good π -> run κ = Ret π -> shape (T π κ) /\ run' (T π κ) = Ret π /\ T' π (T π κ) = κ) ->
  (forall κ π, shape κ -> good π -> run' κ = Ret π -> shape (T' π κ) /\ run (T' π κ) = Ret π /\ T π (T' π κ) = κ) ->
  same_messages shape good run run'.
Proof.
  intros H H'. exists (fun κ => match run κ with Ret π => T π κ | _ => κ end), (fun κ => match run' κ with Ret π => T' π κ | _ => κ end).
  intros κ π Hκ Hπ. split; intros E; rewrite E.
  - destruct (H κ π Hκ Hπ E) as (H1 & H2 & H3). split; [done|]. split; [done|]. rewrite H2. done.
  - destruct (H' κ π Hκ Hπ E) as (H1 & H2 & H3). split; [done|]. split; [done|]. rewrite H2. done.
Qed.

(** ** Changing a random mask *)
(** w + i·(v - v') *)
Definition remask (i : Zr) (v v' w : list Zr) : list Zr := vadd w (vscale i (vsub v v')).
Lemma remask_length i v v' w n : length v = n -> length v' = n -> length w = n -> length (remask i v v' w) = n.
Proof. intros. unfold remask. rewrite vadd_length; rewrite ?vscale_length, ?vsub_length; lia. Qed.
Lemma remask_back i v v' w n : length v = n -> length v' = n -> length w = n -> remask i v' v (remask i v v' w) = w.
Proof.
  revert v' w n. induction v as [|x v IH]; intros [|x' v'] [|y w] n Hv Hv' Hw; cbn in *; try lia; [done|].
  unfold remask, vadd, vscale, vsub in *. cbn. f_equal; [ring|]. apply (IH v' w (length v)); lia.
Qed.
Lemma remask_sum x v v' w n : x <> 0 -> length v = n -> length v' = n -> length w = n ->
  vadd v' (vscale x (remask (zinv x) v v' w)) = vadd v (vscale x w).
Proof.
  intros Hx. assert (Hi : x * zinv x = 1) by (by apply zinv_r). generalize dependent (zinv x). intros i Hi.
  revert v' w n. induction v as [|y v IH]; intros [|y' v'] [|z w] n Hv Hv' Hw; cbn in *; try lia; [done|].
  unfold remask, vadd, vscale, vsub in *. cbn. f_equal; [|apply (IH v' w (length v)); lia].
  transitivity (y' + x * z + (x * i) * (y - y')); [ring|]. rewrite Hi. ring.
Qed.
Lemma remask_dot i v v' w b n : length v = n -> length v' = n -> length w = n -> dot (remask i v v' w) b = dot w b + i * (dot v b - dot v' b).
Proof. intros. unfold remask. rewrite dot_vadd_l, dot_vscale_l, dot_vsub_l; [done|lia|rewrite vscale_length, vsub_length; lia]. Qed.
Lemma remask_msm {M : Grp} i v v' w (g : list M) n : length v = n -> length v' = n -> length w = n ->
  msm (remask i v v' w) g = gadd (msm w g) (gmul i (gadd (msm v g) (gopp (msm v' g)))).
Proof. intros. unfold remask. rewrite msm_vadd, msm_vscale, msm_vsub; [done|lia|rewrite vscale_length, vsub_length; lia]. Qed.

(** ** Discrete logarithms *)
Lemma multiple_of {C : Curve} (F Q : G1 C) : F <> gzero -> exists x, Q = gmul x F.
Proof.
  intros HF. destruct (gen1_gen C F) as [f Ef], (gen1_gen C Q) as [q Eq]. assert (Hf : f <> 0) by (intros ->; apply HF; rewrite Ef; apply gmul_0).
  exists (q * zinv f). rewrite Ef, Eq, <- gmul_mul. f_equal. transitivity (q * (zinv f * f)); [|ring]. rewrite zinv_l by done. ring.
Qed.
Definition dlog_sig {C : Curve} (F : G1 C) (HF : F <> gzero) (Q : G1 C) : {x | Q = gmul x F}.
Proof.
  destruct (constructive_indefinite_ground_description_nat (fun n => Q = gmul (zr (Z.of_nat n)) F)) as [n Hn].
  - intros n. destruct (geqb Q (gmul (zr (Z.of_nat n)) F)) eqn:E; [left; by apply geqb_eq|right]. intros H. apply geqb_eq in H. congruence.
  - destruct (multiple_of F Q HF) as [x Hx]. exists (Z.to_nat (zv x)). rewrite Z2Nat.id by apply zv_range. rewrite zr_zv. done.
  - exists (zr (Z.of_nat n)). exact Hn.
Qed.
(** The x with Q = x·F *)
Definition dlog {C : Curve} (F : G1 C) (HF : F <> gzero) (Q : G1 C) : Zr := proj1_sig (dlog_sig F HF Q).
Lemma dlog_spec {C : Curve} (F : G1 C) HF Q : gmul (dlog F HF Q) F = Q.
Proof. unfold dlog. destruct (dlog_sig F HF Q) as [x Hx]. done. Qed.
Lemma gmul_cancel {M : Grp} (F : M) x y : F <> gzero -> gmul x F = gmul y F -> x = y.
Proof.
  intros HF H. apply zsub_eq_0. destruct (gmul_eq_0 (x - y) F) as [E|E]; [|done|done].
  transitivity (gadd (gmul x F) (gopp (gmul y F))); [module|]. rewrite H. module.
Qed.
Lemma dlog_gmul {C : Curve} (F : G1 C) HF x : dlog F HF (gmul x F) = x.
Proof. apply (gmul_cancel F); [done|]. apply dlog_spec. Qed.
