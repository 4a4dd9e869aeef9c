(** Property C82: the memorizing database wrapper. *)
From Verif Require Import Model_memo Toy.

(** ** Specification *)
(** What the database below answers: the last value written to the key, if any, whoever wrote it. *)
Fixpoint current (db : gmap string bytes) (l : list access) (key : string) : bytes :=
  match l with
  | [] => default [] (db !! key)
  | APut k v :: l => current (<[k := v]> db) l key
  | ABelow k v :: l => current (<[k := v]> db) l key
  | AGet _ :: l => current db l key
  end.
(** No access writes the empty key below the wrapper. *)
Definition root_through (l : list access) : Prop := forall k v, ABelow k v ∈ l -> k <> ""%string.

Lemma length_0_iff k : (String.length k =? 0)%nat = bool_decide (k = ""%string).
Proof. destruct k; done. Qed.
Lemma current_db db l key : current db l key = default [] (me_db (do_accesses (MkMemo db []) l).1 !! key).
Proof.
  assert (H : forall l db r, current db l key = default [] (me_db (do_accesses (MkMemo db r) l).1 !! key)); [|apply H]. clear.
  induction l as [|a l IH]; intros db r; [done|]. destruct a as [k|k v|k v]; cbn [current do_accesses do_access].
  - destruct (Memo_Get (MkMemo db r) k) as [m v] eqn:E. assert (Em : me_db m = db).
    { unfold Memo_Get in E. destruct (_ && _); [injection E as <- <-; done|]. destruct (_ =? _)%nat in E; injection E as <- <-; done. }
    destruct m as [db' r']; cbn in Em; subst db'. destruct (do_accesses (MkMemo db r') l) as [m rs] eqn:E2. cbn [fst]. rewrite (IH db r'), E2. done.
  - destruct (do_accesses (Memo_Put (MkMemo db r) k v) l) as [m rs] eqn:E. cbn [fst]. unfold Memo_Put in E. destruct (_ =? _)%nat in E; cbn [me_db me_root] in E; [rewrite (IH _ v), E|rewrite (IH _ r), E]; done.
  - cbn [me_db me_root]. destruct (do_accesses (MkMemo (<[k:=v]> db) r) l) as [m rs] eqn:E. cbn [fst]. rewrite (IH _ r), E. done.
Qed.
Definition coherent (m : Memo) : Prop := me_root m = [] \/ me_root m = default [] (me_db m !! ""%string).
Lemma coherent_step m a : coherent m -> root_through [a] -> coherent (do_access m a).1.
Proof.
  intros H Ha. destruct m as [db r], a as [k|k v|k v]; cbn [do_access].
  - unfold Memo_Get. cbn [me_root me_db]. destruct (_ && _); [done|]. rewrite length_0_iff. destruct (bool_decide_reflect (k = ""%string)) as [->|Hk]; [|done]. right. done.
  - unfold Memo_Put. rewrite length_0_iff. destruct (bool_decide_reflect (k = ""%string)) as [->|Hk]; cbn [fst]; unfold coherent in *; cbn [me_db me_root] in *.
    + right. rewrite lookup_insert. done.
    + rewrite lookup_insert_ne by done. done.
  - assert (k <> ""%string) by (apply (Ha k v); left). unfold coherent in *. cbn [fst me_db me_root] in *. rewrite lookup_insert_ne by done. done.
Qed.
Lemma do_accesses_app l1 l2 m : (do_accesses m (l1 ++ l2)).1 = (do_accesses (do_accesses m l1).1 l2).1.
Proof.
  revert m. induction l1 as [|a l IH]; intros m; [done|]. cbn [app do_accesses]. destruct (do_access m a) as [m' r]. specialize (IH m').
  destruct (do_accesses m' (l ++ l2)), (do_accesses m' l). cbn [fst] in *. rewrite IH. done.
Qed.
Lemma coherent_run l : forall m, coherent m -> root_through l -> coherent (do_accesses m l).1.
Proof.
  induction l as [|a l IH]; intros m Hm Hl; [done|]. cbn [do_accesses]. destruct (do_access m a) as [m' r] eqn:E. destruct (do_accesses m' l) as [m'' rs] eqn:E2. cbn [fst].
  assert (Hm' : coherent m') by (replace m' with (do_access m a).1 by (by rewrite E); apply coherent_step; [done|intros k v Hin; apply elem_of_list_singleton in Hin as <-; apply (Hl k v); left]).
  specialize (IH m' Hm'). rewrite E2 in IH. apply IH. intros k v Hin. apply (Hl k v). by right.
Qed.

(** As long as nobody writes the empty key below the wrapper, it is transparent: whatever the accesses before, every Get
    answers what the database holds. *)
Theorem C82_transparent db l key : root_through l ->
  (Memo_Get (do_accesses (MkMemo db []) l).1 key).2 = current db l key.
Proof.
  intros Hl. rewrite current_db. assert (Hc : coherent (do_accesses (MkMemo db []) l).1) by (apply coherent_run; [by left|done]).
  destruct (do_accesses (MkMemo db []) l).1 as [d r]. unfold Memo_Get. cbn [me_db me_root] in *. rewrite length_0_iff.
  destruct (bool_decide_reflect (key = ""%string)) as [->|Hk]; cbn [andb snd]; [|done]. destruct (Nat.eqb_spec (length r) 0) as [E|E]; cbn [negb snd]; [done|].
  destruct Hc as [H|H]; cbn [me_root me_db] in H; [by rewrite H in E|done].
Qed.
(** Other keys than the empty one are never memorized: they are transparent without any condition. *)
Theorem C82_other_keys db l key : key <> ""%string -> (Memo_Get (do_accesses (MkMemo db []) l).1 key).2 = current db l key.
Proof.
  intros Hk. rewrite current_db. destruct (do_accesses (MkMemo db []) l).1 as [d r]. unfold Memo_Get. rewrite length_0_iff.
  destruct (bool_decide_reflect (key = ""%string)); done.
Qed.
(** Once a non-empty root was read, writes below the wrapper (the tree's) are not seen: the empty key answers the value read
    before, until it is written through the wrapper. *)
Theorem C82_stale db l l' : current db l ""%string <> [] -> root_through l -> (forall v, APut ""%string v ∉ l') ->
  (Memo_Get (do_accesses (MkMemo db []) (l ++ AGet ""%string :: l')).1 ""%string).2 = current db l ""%string.
Proof.
  intros Hne Hl Hl'. rewrite do_accesses_app. cbn [do_accesses]. pose proof (C82_transparent db l ""%string Hl) as HT.
  destruct (do_access (do_accesses (MkMemo db []) l).1 (AGet "")) as [m r] eqn:E.
  assert (Hm : me_root m = current db l ""%string).
  { revert E HT. cbn [do_access]. unfold Memo_Get. destruct (do_accesses (MkMemo db []) l).1 as [d rt]. cbn [me_root me_db String.length Nat.eqb andb].
    destruct (negb _); intros [= <- <-] HT; exact HT. }
  clear E HT. assert (Hr : forall l' m, (forall v, APut ""%string v ∉ l') -> me_root m <> [] -> me_root (do_accesses m l').1 = me_root m).
  { clear. induction l' as [|a l' IH]; intros m Hp Hne; [done|]. cbn [do_accesses]. destruct (do_access m a) as [m' r] eqn:E. destruct (do_accesses m' l') as [m'' rs] eqn:E2. cbn [fst].
    assert (Hm' : me_root m' = me_root m).
    { destruct a as [k|k v|k v]; cbn [do_access] in E.
      - unfold Memo_Get in E. rewrite length_0_iff in E. destruct (bool_decide (k = ""%string)); cbn [andb] in E; [|by injection E as <- <-].
        destruct (Nat.eqb_spec (length (me_root m)) 0) as [E0|E0]; [by destruct (me_root m)|]. injection E as <- <-. done.
      - injection E as <- <-. unfold Memo_Put. rewrite length_0_iff. destruct (bool_decide_reflect (k = ""%string)) as [->|]; [|done]. exfalso. apply (Hp v). left.
      - injection E as <- <-. done. }
    rewrite <- Hm'. replace m'' with (do_accesses m' l').1 by (by rewrite E2). apply IH; [intros v Hin; apply (Hp v); by right|congruence]. }
  destruct (do_accesses m l') as [m' rs] eqn:E. cbn [fst]. specialize (Hr l' m Hl'). rewrite E in Hr. cbn [fst] in Hr. rewrite Hm in Hr. specialize (Hr Hne).
  unfold Memo_Get. rewrite Hr. destruct (current db l ""%string) eqn:Ec; [done|]. cbn. done.
Qed.
(** The accesses of the liability set are those of the wrapper. *)
Theorem C82_used_by_root (ls : LSet) key :
  let m := MkMemo (vs_db (vt_state (ls_tree ls))) (ls_root ls) in
  (memo_Get ls key).2 = (Memo_Get m key).2 /\ ls_root (memo_Get ls key).1 = me_root (Memo_Get m key).1 /\
  ls_tree (memo_Get ls key).1 = ls_tree ls.
Proof.
  cbn zeta. unfold memo_Get, Memo_Get. cbn [me_root me_db]. destruct (_ && _); [done|]. destruct (_ =? _)%nat; done.
Qed.
Print Assumptions C82_transparent.
Print Assumptions C82_other_keys.
Print Assumptions C82_stale.
Print Assumptions C82_used_by_root.

(** A root read once, overwritten below (stale answer), then written through the wrapper (current again) *)
Example C82_nonvacuous : let l := [APut "" [1%Z]] in let l' := [ABelow "" [2%Z]; ABelow ".1" [3%Z]] in
  root_through l /\ current ∅ l "" <> [] /\ (forall v, APut ""%string v ∉ l') /\ ~ root_through l' /\
  current ∅ (l ++ AGet "" :: l') "" = [2%Z] /\
  (do_accesses (MkMemo ∅ []) (l ++ AGet "" :: l' ++ [AGet ""; AGet ".1"; APut "" [4%Z]; AGet ""])).2 = [[1%Z]; [1%Z]; [3%Z]; [4%Z]].
Proof.
  cbn zeta. split; [intros k v H; apply elem_of_list_singleton in H; done|]. split; [vm_compute; discriminate|].
  split; [intros v H; repeat (apply elem_of_cons in H as [H|H]; [discriminate H|]); by apply elem_of_nil in H|].
  split; [intros H; by apply (H ""%string [2%Z]); [left|]|]. split; vm_compute; reflexivity.
Qed.
