(** A concrete instance of [Curve], used only to show that hypotheses of theorems are satisfiable:
    every group is Zr itself (a point is its discrete logarithm), the pairing is multiplication, and
    the hash functions are simple mixing functions. *)
From Verif Require Import Common_facts.
Local Open Scope Zr_scope.

Program Definition toyG : Grp := {|
  gcar := Zr; gzero := 0; gadd := zadd; gopp := zopp; gmul := zmul; geqb := zeqb |}.
Next Obligation. intros; ring. Qed.
Next Obligation. intros; ring. Qed.
Next Obligation. intros; ring. Qed.
Next Obligation. intros; ring. Qed.
Next Obligation. intros; ring. Qed.
Next Obligation. intros; ring. Qed.
Next Obligation. intros; ring. Qed.
Next Obligation. intros; ring. Qed.
Next Obligation. intros; apply zeqb_eq. Qed.

Definition toy_mix (bs : bytes) : Z :=
  fold_left (fun acc b => (acc * 1099511628211 + b + 1) mod 2 ^ 256)%Z bs 14695981039346656037%Z.
(** The first byte is 1, so that no challenge derived from the hash is ever zero. *)
Definition toy_hash (bs : bytes) : bytes := 1%Z :: be_bytes 31 (toy_mix bs).
Lemma toy_hash_len bs : length (toy_hash bs) = 32%nat.
Proof. unfold toy_hash. cbn [length]. rewrite be_bytes_length. done. Qed.
Lemma toy_hash_wf bs : wf_bytes (toy_hash bs).
Proof. unfold toy_hash. constructor; [unfold wf_byte; lia|apply be_bytes_wf]. Qed.
Definition toy_dec (bs : bytes) : option Zr :=
  if (length bs =? 32)%nat && canon (be_val bs) then Some (zr (be_val bs)) else None.

Program Definition toy : Curve := {|
  G1 := toyG; G2 := toyG; GT := toyG; gen1 := (1 : Zr); gen2 := (1 : Zr);
  pair := zmul;
  g1_len := 32;
  enc1 := Zr_Bytes; enc2 := Zr_Bytes; encT := Zr_Bytes;
  dec1 := toy_dec;
  sha256 := toy_hash; hmac := fun k m => toy_hash (k ++ m);
  hash_to_g1 := fun bs => (zr (1 + toy_mix bs mod 2 ^ 250) : Zr) |}.
Next Obligation. intros; cbn in *; ring. Qed.
Next Obligation. intros; cbn in *; ring. Qed.
Next Obligation. intros; cbn in *; ring. Qed.
Next Obligation. intros; cbn in *; ring. Qed.
Next Obligation. intros P; cbn in *; exists P; ring. Qed.
Next Obligation. cbn. intros H. apply (f_equal zv) in H. vm_compute in H. discriminate. Qed.
Next Obligation. lia. Qed.
Next Obligation. intros; apply Zr_Bytes_length. Qed.
Next Obligation. intros; apply be_bytes_wf. Qed.
Next Obligation.
  intros P. change (toy_dec (Zr_Bytes P) = Some P). unfold toy_dec. rewrite Zr_Bytes_length, be_val_Zr_Bytes.
  pose proof (zv_range P). replace (canon (zv P)) with true by (symmetry; apply zv_ok). cbn. rewrite zr_zv. done.
Qed.
Next Obligation. intros; apply toy_hash_len. Qed.
Next Obligation. intros; apply toy_hash_wf. Qed.
Next Obligation. intros; apply toy_hash_len. Qed.
Next Obligation. intros; apply toy_hash_wf. Qed.

Lemma fe_neq_0 d : length d = 32%nat -> wf_bytes d -> Exists (fun b => b <> 0%Z) (take 24 d) -> fe d <> 0.
Proof.
  intros Hl Hw Hex E. pose proof (digest_limbs_range d Hl Hw) as R. cbv zeta in R.
  pose proof (limbs_val_range _ R) as Rv. unfold fe in E.
  assert (E' : zr (limbs_val (digest_limbs d)) = 0).
  { transitivity (zr (limbs_val (digest_limbs d)) / zr (2 ^ 256) * zr (2^256)); [field; apply pow256_neq_0|].
    rewrite E. ring. }
  apply zr_inj_small in E'; [|done|pose proof r_pos; lia].
  unfold limbs_val in E'.
  assert (l0 (digest_limbs d) = 0 /\ l1 (digest_limbs d) = 0 /\ l2 (digest_limbs d) = 0)%Z as (A & B & D).
  { destruct R as (?&?&?&?). repeat split; nia. }
  cbn [l0 l1 l2 digest_limbs] in *.
  assert (Z0 : forall l, wf_bytes l -> be_val l = 0%Z -> Forall (fun b => b = 0%Z) l).
  { clear. intros l Hw H. assert (Hr : l = replicate (length l) 0%Z).
    { apply be_val_inj; [done| |rewrite replicate_length; done|].
      - apply Forall_replicate. unfold wf_byte; lia.
      - rewrite H. clear. induction (length l) as [|n IH]; [done|].
        change (replicate (S n) 0%Z) with (0%Z :: replicate n 0%Z). unfold be_val in *. cbn. exact IH. }
    rewrite Hr. apply Forall_replicate. done. }
  apply Z0 in A, B, D; [|apply Forall_take; try apply Forall_drop; done..].
  apply Exists_exists in Hex. destruct Hex as [b [Hb Hb0]]. apply Hb0.
  replace (take 24 d) with (take 8 d ++ take 8 (drop 8 d) ++ take 8 (drop 16 d)) in Hb.
  - rewrite !elem_of_app in Hb. rewrite Forall_forall in A, B, D. destruct Hb as [Hb|[Hb|Hb]]; auto.
  - clear -Hl. do 32 (destruct d as [|? d]; [discriminate|]). reflexivity.
Qed.

Lemma toy_challenge_neq_0 bs : fe (sha256 toy bs) <> 0.
Proof. apply fe_neq_0; [apply toy_hash_len|apply toy_hash_wf|]. left. lia. Qed.

Lemma toy_hash_to_g1_neq_0 bs : hash_to_g1 toy bs <> gzero.
Proof.
  intros E. cbn in E. apply zr_inj_small in E; pose proof (Z.mod_pos_bound (toy_mix bs) (2^250) ltac:(reflexivity)).
  - lia.
  - assert (1 + 2 ^ 250 < r)%Z by reflexivity. lia.
  - pose proof r_pos. lia.
Qed.
