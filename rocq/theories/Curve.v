(** The pairing-friendly curve seen by the Go code (mathlib math.Curves[1], common/math.go:17), as a
    record over which every theorem quantifies: three groups that are modules over Zr (written
    additively, also GT), generators, a bilinear non-degenerate pairing, byte encodings, and the hash
    functions (arbitrary functions of the right output length).  Nothing here is an axiom: Toy.v
    builds an instance. *)
From Verif Require Export Zr.
Local Open Scope Zr_scope.

Record Grp : Type := MkGrp {
  gcar :> Type;
  gzero : gcar;
  gadd : gcar -> gcar -> gcar;
  gopp : gcar -> gcar;
  gmul : Zr -> gcar -> gcar;
  geqb : gcar -> gcar -> bool;
  gadd_comm : forall P Q, gadd P Q = gadd Q P;
  gadd_assoc : forall P Q R, gadd P (gadd Q R) = gadd (gadd P Q) R;
  gadd_0_l : forall P, gadd gzero P = P;
  gadd_opp_r : forall P, gadd P (gopp P) = gzero;
  gmul_add_l : forall x y P, gmul (x + y) P = gadd (gmul x P) (gmul y P);
  gmul_add_r : forall x P Q, gmul x (gadd P Q) = gadd (gmul x P) (gmul x Q);
  gmul_mul : forall x y P, gmul (x * y) P = gmul x (gmul y P);
  gmul_1 : forall P, gmul 1 P = P;
  geqb_eq : forall P Q, geqb P Q = true <-> P = Q;
}.
Arguments gzero {_}. Arguments gadd {_}. Arguments gopp {_}. Arguments gmul {_}. Arguments geqb {_}.

Declare Scope G_scope.
Delimit Scope G_scope with G.
Infix "+" := gadd : G_scope.
Notation "- x" := (gopp x) : G_scope.
Notation "P - Q" := (gadd P (gopp Q)) : G_scope.
Notation "x ⋅ P" := (gmul x P) (at level 39, right associativity) : G_scope.
Notation "'𝟎'" := gzero : G_scope.
Bind Scope G_scope with gcar.

Record Curve : Type := MkCurve {
  G1 : Grp; G2 : Grp; GT : Grp;
  gen1 : G1; gen2 : G2;
  pair : G1 -> G2 -> GT;               (* FExp(Pairing(Q,P)) *)
  pair_add_l : forall P P' Q, pair (gadd P P') Q = gadd (pair P Q) (pair P' Q);
  pair_add_r : forall P Q Q', pair P (gadd Q Q') = gadd (pair P Q) (pair P Q');
  pair_mul_l : forall x P Q, pair (gmul x P) Q = gmul x (pair P Q);
  pair_mul_r : forall x P Q, pair P (gmul x Q) = gmul x (pair P Q);
  gen1_gen : forall P : G1, exists x, P = gmul x gen1;   (* G1 is cyclic *)
  pair_nondeg : pair gen1 gen2 <> gzero;
  (* encodings *)
  g1_len : nat; g1_len_bound : (0 < Z.of_nat g1_len < 65536)%Z;   (* 64 for BN254 *)
  enc1 : G1 -> bytes; enc2 : G2 -> bytes; encT : GT -> bytes;
  dec1 : bytes -> option G1;           (* NewG1FromBytes *)
  enc1_len : forall P, length (enc1 P) = g1_len;
  enc1_wf : forall P, wf_bytes (enc1 P);
  dec1_enc1 : forall P, dec1 (enc1 P) = Some P;
  (* hashing *)
  sha256 : bytes -> bytes;
  sha256_len : forall bs, length (sha256 bs) = 32;
  sha256_wf : forall bs, wf_bytes (sha256 bs);
  hmac : bytes -> bytes -> bytes;      (* HMAC-SHA256 key message *)
  hmac_len : forall k bs, length (hmac k bs) = 32;
  hmac_wf : forall k bs, wf_bytes (hmac k bs);
  hash_to_g1 : bytes -> G1;
}.

(** ** Group lemmas *)
Section Grp.
  Context {M : Grp}.
  Local Open Scope G_scope.
  Implicit Types P Q R : M.

  Lemma gadd_0_r P : P + 𝟎 = P.
  Proof. rewrite gadd_comm. apply gadd_0_l. Qed.
  Lemma gadd_cancel_l P Q R : P + Q = P + R -> Q = R.
  Proof.
    intros H. rewrite <- (gadd_0_l _ Q), <- (gadd_0_l _ R), <- (gadd_opp_r _ P).
    rewrite (gadd_comm _ P). rewrite <- !gadd_assoc. rewrite H. reflexivity.
  Qed.
  Lemma gmul_0 P : 0%zr ⋅ P = 𝟎.
  Proof.
    apply (gadd_cancel_l (0%zr ⋅ P)). rewrite gadd_0_r, <- gmul_add_l. f_equal; try ring.
  Qed.
  Lemma gmul_O x : x ⋅ (𝟎 : M) = 𝟎.
  Proof. rewrite <- (gmul_0 𝟎) at 1. rewrite <- gmul_mul. replace (x * 0)%zr with 0%zr by ring. apply gmul_0. Qed.
  Lemma gopp_mul P : - P = (- (1))%zr ⋅ P.
  Proof.
    apply (gadd_cancel_l P). rewrite gadd_opp_r.
    transitivity (1%zr ⋅ P + (- (1))%zr ⋅ P); [|rewrite gmul_1; reflexivity].
    rewrite <- gmul_add_l. replace (1 + - (1))%zr with 0%zr by ring. symmetry. apply gmul_0.
  Qed.
  Lemma gsub_eq_0 P Q : P - Q = 𝟎 -> P = Q.
  Proof.
    intros H. apply (gadd_cancel_l (-Q)). rewrite (gadd_comm _ (-Q) Q), gadd_opp_r, gadd_comm. exact H.
  Qed.
  Lemma gmul_eq_0 x P : x ⋅ P = 𝟎 -> x = 0%zr \/ P = 𝟎.
  Proof.
    intros H. destruct (decide (x = 0%zr)) as [|Hx]; [left; assumption|right].
    rewrite <- (gmul_1 _ P), <- (zinv_l x Hx), gmul_mul, H. apply gmul_O.
  Qed.
  Lemma geqb_refl P : geqb P P = true. Proof. apply geqb_eq. reflexivity. Qed.
  Lemma geqb_neq P Q : geqb P Q = false <-> P <> Q.
  Proof. rewrite <- geqb_eq. destruct (geqb P Q); split; congruence. Qed.
  Global Instance grp_eq_dec : EqDecision M.
  Proof. intros P Q. destruct (geqb P Q) eqn:E; [left; apply geqb_eq, E|right; apply geqb_neq, E]. Defined.
  Global Instance grp_inhabited : Inhabited M := populate gzero.
End Grp.

(** ** A reflexive tactic for equations between linear combinations *)
Section Refl.
  Context {M : Grp}.
  Inductive mexp : Type :=
  | MO | MX (n : nat) | MP (a b : mexp) | MN (a : mexp) | MM (x : Zr) (a : mexp).
  Fixpoint mden (env : list M) (e : mexp) : M :=
    match e with
    | MO => gzero
    | MX n => nth n env gzero
    | MP a b => gadd (mden env a) (mden env b)
    | MN a => gopp (mden env a)
    | MM x a => gmul x (mden env a)
    end.
  Fixpoint mco (e : mexp) (i : nat) : Zr :=
    match e with
    | MO => 0
    | MX n => if Nat.eqb n i then 1 else 0
    | MP a b => mco a i + mco b i
    | MN a => - mco a i
    | MM x a => x * mco a i
    end.
  Fixpoint mlin (env : list M) (c : nat -> Zr) (i : nat) : M :=
    match env with
    | [] => gzero
    | P :: env => gadd (gmul (c i) P) (mlin env c (S i))
    end.
  Lemma mlin_ext env c c' i : (forall j, c j = c' j) -> mlin env c i = mlin env c' i.
  Proof. intros H. revert i. induction env as [|P env IH]; intros i; simpl; [done|]. rewrite H, IH. done. Qed.
  Lemma mlin_0 env i : mlin env (fun _ => 0) i = gzero.
  Proof. revert i; induction env as [|P env IH]; intros i; simpl; [done|]. rewrite IH, gmul_0, gadd_0_l. done. Qed.
  Lemma mlin_add env c c' i : mlin env (fun j => c j + c' j) i = gadd (mlin env c i) (mlin env c' i).
  Proof.
    revert i; induction env as [|P env IH]; intros i; simpl; [rewrite gadd_0_l; done|].
    rewrite IH, gmul_add_l. rewrite <- !gadd_assoc. f_equal. rewrite !gadd_assoc. f_equal. apply gadd_comm.
  Qed.
  Lemma mlin_mul env x c i : mlin env (fun j => x * c j) i = gmul x (mlin env c i).
  Proof.
    revert i; induction env as [|P env IH]; intros i; simpl; [rewrite gmul_O; done|].
    rewrite IH, gmul_mul, gmul_add_r. done.
  Qed.
  Lemma mlin_delta env n i : mlin env (fun j => if Nat.eqb (n + i) j then 1 else 0) i = nth n env gzero.
  Proof.
    revert n i; induction env as [|P env IH]; intros n i; cbn [mlin nth]; [destruct n; done|].
    destruct n as [|n]; cbn [nth Nat.add].
    - rewrite Nat.eqb_refl, gmul_1. transitivity (gadd P (mlin env (fun _ => 0) (S i))).
      + f_equal. clear. assert (H : forall k, (i < k)%nat -> mlin env (fun j => if (i =? j)%nat then 1 else 0) k = mlin env (fun _ => 0) k).
        { induction env as [|Q env IH]; intros k Hk; simpl; [done|].
          destruct (Nat.eqb_spec i k); [lia|]. rewrite IH by lia. done. }
        apply H. lia.
      + rewrite mlin_0. apply gadd_0_r.
    - destruct (Nat.eqb_spec (S (n + i)) i); [lia|]. rewrite gmul_0, gadd_0_l.
      replace (S (n + i)) with (n + S i)%nat by lia. apply IH.
  Qed.
  Lemma mden_mlin env e : mden env e = mlin env (mco e) 0.
  Proof.
    induction e as [|n|a IHa b IHb|a IH|x a IH]; simpl.
    - symmetry. apply mlin_0.
    - rewrite <- (mlin_delta env n 0). apply mlin_ext. intros j. rewrite Nat.add_0_r. done.
    - rewrite IHa, IHb, <- mlin_add. done.
    - rewrite IH, gopp_mul, <- mlin_mul. apply mlin_ext. intros j. ring.
    - rewrite IH, <- mlin_mul. done.
  Qed.
  Fixpoint mgoal (env : list M) (e e' : mexp) (i : nat) : Prop :=
    match env with
    | [] => True
    | _ :: env => mco e i = mco e' i /\ mgoal env e e' (S i)
    end.
  Lemma module_sound env e e' : mgoal env e e' 0 -> mden env e = mden env e'.
  Proof.
    rewrite !mden_mlin. generalize 0%nat as i. induction env as [|P env IH]; intros i H; simpl in *; [done|].
    destruct H as [-> H]. f_equal. apply IH, H.
  Qed.
End Refl.

Ltac m_mem x l := lazymatch l with
  | nil => constr:(false) | x :: _ => constr:(true) | _ :: ?l => m_mem x l end.
Ltac m_atoms e l := lazymatch e with
  | gzero => l
  | gadd ?a ?b => let l := m_atoms a l in m_atoms b l
  | gopp ?a => m_atoms a l
  | gmul _ ?a => m_atoms a l
  | _ => lazymatch m_mem e l with true => l | false => constr:(e :: l) end
  end.
Ltac m_pos x l := lazymatch l with
  | x :: _ => constr:(O) | _ :: ?l => let n := m_pos x l in constr:(S n) end.
Ltac m_reify e l := lazymatch e with
  | gzero => constr:(MO)
  | gadd ?a ?b => let a := m_reify a l in let b := m_reify b l in constr:(MP a b)
  | gopp ?a => let a := m_reify a l in constr:(MN a)
  | gmul ?x ?a => let a := m_reify a l in constr:(MM x a)
  | _ => let n := m_pos e l in constr:(MX n)
  end.
(** Reduce an equation in a group to equations between the coefficients of its atoms. *)
Ltac module_pre := lazymatch goal with
  | |- @eq (gcar ?M) ?a ?b =>
    let l := m_atoms a (@nil (gcar M)) in
    let l := m_atoms b l in
    let ea := m_reify a l in
    let eb := m_reify b l in
    change (mden l ea = mden l eb);
    apply module_sound;
    cbn [mgoal mco Nat.eqb];
    repeat match goal with |- _ /\ _ => split | |- True => exact I end
  end.
Ltac module := module_pre; ring.
Ltac module_simp := module_pre; try ring.
Ltac module_field := module_pre; try ring; try (field; repeat split; assumption).

(** ** Curve lemmas *)
Section Curve.
  Context {C : Curve}.
  Local Open Scope G_scope.

  Lemma pair_0_l Q : pair C 𝟎 Q = 𝟎.
  Proof. rewrite <- (gmul_0 (gen1 C)), pair_mul_l. apply gmul_0. Qed.
  Lemma pair_0_r P : pair C P 𝟎 = 𝟎.
  Proof. rewrite <- (gmul_0 (gen2 C)), pair_mul_r. apply gmul_0. Qed.
  Lemma pair_opp_l P Q : pair C (- P) Q = - pair C P Q.
  Proof. rewrite !gopp_mul, pair_mul_l. reflexivity. Qed.
  Lemma gen1_neq_0 : gen1 C <> 𝟎.
  Proof. intros H. apply (pair_nondeg C). rewrite H. apply pair_0_l. Qed.
  Lemma gen1_inj x y : x ⋅ gen1 C = y ⋅ gen1 C -> x = y.
  Proof.
    intros H. apply zsub_eq_0. assert (E : (x - y)%zr ⋅ gen1 C = 𝟎).
    { transitivity (x ⋅ gen1 C - y ⋅ gen1 C); [module|]. rewrite H. module. }
    apply gmul_eq_0 in E. destruct E as [E|E]; [exact E|]. destruct (gen1_neq_0 E).
  Qed.
  Lemma pair_gen2_inj P : pair C P (gen2 C) = 𝟎 -> P = 𝟎.
  Proof.
    intros H. destruct (gen1_gen C P) as [x ->]. rewrite pair_mul_l in H. apply gmul_eq_0 in H.
    destruct H as [->|H]; [apply gmul_0|]. destruct (pair_nondeg C H).
  Qed.
  Lemma enc1_inj P Q : enc1 C P = enc1 C Q -> P = Q.
  Proof. intros H. pose proof (dec1_enc1 C P) as E. rewrite H, dec1_enc1 in E. congruence. Qed.
End Curve.

Goal forall (M : Grp) (P Q : M) x y, x <> 0 -> (gmul (x + y) (gadd P Q) = gadd (gmul x P) (gadd (gmul y P) (gadd (gmul y Q) (gmul (x*x/x) Q))))%G.
Proof. intros. module_field. Qed.
