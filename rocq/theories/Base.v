(** Shared vocabulary of the model: outcomes of Go functions, error values, byte strings. *)
From stdpp Require Export prelude list list_numbers strings gmap pretty.
From Coq Require Export ZArith Lia.
From Coq Require Export ZifyBool ZifyNat ZifyN.
Export ListNotations.
Global Open Scope nat_scope.

(** Outcome of running a Go function: it returns, it panics, or (for the loops that are run on
    explicit fuel) it has not returned within the fuel. *)
Inductive res (A : Type) : Type :=
| Ret (a : A)
| Panic
| Hang.
Arguments Ret {A} a.
Arguments Panic {A}.
Arguments Hang {A}.

Definition rbind {A B} (x : res A) (f : A -> res B) : res B :=
  match x with Ret a => f a | Panic => Panic | Hang => Hang end.
Notation "'let!' x := e 'in' k" := (rbind e (fun x => k))
  (at level 200, x pattern, e at level 200, k at level 200, right associativity).
Notation "'let!' ' p := e 'in' k" := (rbind e (fun x => match x with p => k end))
  (at level 200, p strict pattern, e at level 200, k at level 200).
Notation "'check!' b 'in' k" := (if b then k else Panic)
  (at level 200, b at level 200, k at level 200, right associativity).

(** Go's [error] result: [nil] or an error with a message. *)
Inductive error : Type := nil_error | Err (msg : string).
Definition is_nil (e : error) : bool := match e with nil_error => true | Err _ => false end.
Definition accepts (x : res error) : Prop := x = Ret nil_error.

(** A [byte] is an integer; [wf_bytes] says all are in [0,256). *)
Definition bytes := list Z.
Definition wf_byte (b : Z) : Prop := (0 <= b < 256)%Z.
Definition wf_bytes (bs : bytes) : Prop := Forall wf_byte bs.

(** [x[i]] on a Go slice: panics when out of range. *)
Definition idx {A} (l : list A) (i : nat) : res A :=
  match l !! i with Some a => Ret a | None => Panic end.
(** [x[i]] with a Go [int] index, which may be negative. *)
Definition idxZ {A} (l : list A) (i : Z) : res A :=
  if (i <? 0)%Z then Panic else idx l (Z.to_nat i).

(** Map over a list, stopping at the first panic. *)
Fixpoint mapM {A B} (f : A -> res B) (l : list A) : res (list B) :=
  match l with
  | [] => Ret []
  | x :: l => let! y := f x in let! ys := mapM f l in Ret (y :: ys)
  end.

(** Bytes of a Go string. *)
Definition byte_of_ascii (a : Ascii.ascii) : Z := Z.of_N (Ascii.N_of_ascii a).
Fixpoint string_bytes (s : string) : bytes :=
  match s with EmptyString => [] | String a s => byte_of_ascii a :: string_bytes s end.

(** Big-endian encoding of [z] on [n] bytes (binary.BigEndian.PutUint16/32/64 and big.Int bytes). *)
Fixpoint be_bytes (n : nat) (z : Z) : bytes :=
  match n with
  | O => []
  | S n => be_bytes n (z / 256)%Z ++ [(z mod 256)%Z]
  end.
(** Big-endian decoding. *)
Definition be_val (bs : bytes) : Z := fold_left (fun acc b => (acc * 256 + b)%Z) bs 0%Z.

Lemma be_bytes_length n z : length (be_bytes n z) = n.
Proof. revert z; induction n as [|n IH]; intros z; cbn [be_bytes]; [done|]. rewrite app_length, IH; simpl; lia. Qed.

Lemma be_val_app bs b : be_val (bs ++ [b]) = (be_val bs * 256 + b)%Z.
Proof. unfold be_val. rewrite fold_left_app. reflexivity. Qed.

Lemma be_bytes_wf n z : wf_bytes (be_bytes n z).
Proof.
  revert z; induction n as [|n IH]; intros z; cbn [be_bytes]; [constructor|].
  apply Forall_app; split; [apply IH|]. constructor; [|constructor]. unfold wf_byte.
  pose proof (Z.mod_pos_bound z 256 ltac:(lia)); lia.
Qed.

Lemma be_val_be_bytes n z : (0 <= z < 256 ^ Z.of_nat n)%Z -> be_val (be_bytes n z) = z.
Proof.
  revert z; induction n as [|n IH]; intros z Hz; cbn [be_bytes].
  - change (256 ^ Z.of_nat 0)%Z with 1%Z in Hz. unfold be_val; simpl; lia.
  - rewrite be_val_app, IH.
    + pose proof (Z.div_mod z 256 ltac:(lia)); lia.
    + rewrite Nat2Z.inj_succ, Z.pow_succ_r in Hz by lia.
      split; [apply Z.div_pos; lia|]. apply Z.div_lt_upper_bound; lia.
Qed.

Lemma be_val_bound bs : wf_bytes bs -> (0 <= be_val bs < 256 ^ Z.of_nat (length bs))%Z.
Proof.
  induction bs as [|b bs IH] using rev_ind; intros H.
  - unfold be_val; simpl; lia.
  - apply Forall_app in H. destruct H as [H1 H2]. inversion H2 as [|? ? Hb _]; subst.
    rewrite be_val_app, app_length. specialize (IH H1). unfold wf_byte in Hb. simpl.
    rewrite Nat2Z.inj_add, Z.pow_add_r by lia. change (256 ^ Z.of_nat 1)%Z with 256%Z. nia.
Qed.

Lemma be_val_inj bs bs' : wf_bytes bs -> wf_bytes bs' -> length bs = length bs' ->
  be_val bs = be_val bs' -> bs = bs'.
Proof.
  revert bs'. induction bs as [|b bs IH] using rev_ind; intros bs' H H' Hl He.
  - destruct bs'; [done|discriminate].
  - destruct bs' as [|b' bs' _] using rev_ind; [rewrite app_length in Hl; simpl in Hl; lia|].
    rewrite !app_length in Hl. simpl in Hl.
    apply Forall_app in H; destruct H as [H1 H2]; inversion H2 as [|? ? Hb _]; subst.
    apply Forall_app in H'; destruct H' as [H1' H2']; inversion H2' as [|? ? Hb' _]; subst.
    rewrite !be_val_app in He. unfold wf_byte in *.
    assert (be_val bs = be_val bs' /\ b = b') as [E ->] by lia.
    f_equal. apply IH; [assumption..|lia|assumption].
Qed.

(** Lemmas about the outcome monad. *)
Lemma rbind_ret {A B} (a : A) (f : A -> res B) : rbind (Ret a) f = f a.
Proof. reflexivity. Qed.

Lemma rbind_inv {A B} (x : res A) (f : A -> res B) b :
  rbind x f = Ret b -> exists a, x = Ret a /\ f a = Ret b.
Proof. destruct x; simpl; intros H; try discriminate. eauto. Qed.

Lemma mapM_ret {A B} (f : A -> res B) (g : A -> B) l :
  (forall x, x ∈ l -> f x = Ret (g x)) -> mapM f l = Ret (g <$> l).
Proof.
  induction l as [|x l IH]; intros H; cbn [mapM]; [done|].
  rewrite (H x) by left. cbn [rbind]. rewrite IH; [done|]. intros y Hy. apply H. right. exact Hy.
Qed.

Lemma mapM_length {A B} (f : A -> res B) l ys : mapM f l = Ret ys -> length ys = length l.
Proof.
  revert ys; induction l as [|x l IH]; intros ys H; cbn [mapM] in H; [injection H as <-; done|].
  apply rbind_inv in H. destruct H as [y [_ H]]. apply rbind_inv in H. destruct H as [zs [H1 H2]].
  injection H2 as <-. simpl. f_equal. apply IH. exact H1.
Qed.

Lemma mapM_lookup {A B} (f : A -> res B) l ys i x :
  mapM f l = Ret ys -> l !! i = Some x -> exists y, ys !! i = Some y /\ f x = Ret y.
Proof.
  revert ys i; induction l as [|a l IH]; intros ys i H Hx; [done|]. cbn [mapM] in H.
  apply rbind_inv in H. destruct H as [y [Hy H]]. apply rbind_inv in H. destruct H as [zs [H1 H2]].
  injection H2 as <-. destruct i as [|i]; simpl in *; [injection Hx as ->; eauto|].
  apply IH; assumption.
Qed.

Lemma idx_ret {A} (l : list A) i a : l !! i = Some a -> idx l i = Ret a.
Proof. unfold idx. intros ->. reflexivity. Qed.
