(** Facts about the sparse tree. *)
From Verif Require Export Model_sparse Paths_facts.

Lemma mget_mset {A} (m : list (nat * A)) k k' a : mget (mset m k a) k' = if decide (k' = k) then Some a else mget m k'.
Proof.
  induction m as [|[k0 a0] m IH]; cbn [mset mget].
  - destruct (decide (k' = k)); done.
  - destruct (decide (k = k0)) as [->|Hk]; cbn [mget].
    + destruct (decide (k' = k0)); done.
    + rewrite IH. destruct (decide (k' = k0)) as [->|]; [|done]. destruct (decide (k0 = k)); [congruence|done].
Qed.
Lemma mget_elem {A} (m : list (nat * A)) k a : mget m k = Some a -> (k, a) ∈ m.
Proof. induction m as [|[k0 a0] m IH]; cbn [mget]; [done|]. destruct (decide (k = k0)) as [->|]; [intros [= ->]; left|intros H; right; auto]. Qed.
Lemma elem_mget {A} (m : list (nat * A)) k a : (k, a) ∈ m -> is_Some (mget m k).
Proof.
  induction m as [|[k0 a0] m IH]; cbn [mget]; [by rewrite elem_of_nil|]. rewrite elem_of_cons. intros [[= -> ->]|H]; destruct (decide _); try done; eauto.
Qed.

(** ** Keys *)
(** The key of the vertex at a path: .a.b.c *)
Definition path_key (q : path) : string := foldl child_key "" q.
Lemma path_key_snoc q i : path_key (q ++ [i]) = child_key (path_key q) i.
Proof. unfold path_key. rewrite foldl_app. done. Qed.
Lemma pretty_no_dot (n : N) : 46%Z ∉ string_bytes (pretty n).
Proof.
  intros Hin. pose proof (pretty_N_digits n) as Hd. rewrite Forall_forall in Hd. apply Hd in Hin.
  unfold is_digit_byte in Hin. lia.
Qed.
Lemma child_key_bytes s i : string_bytes (child_key s i) = string_bytes s ++ 46%Z :: string_bytes (pretty (N.of_nat i)).
Proof. unfold child_key. rewrite !string_bytes_app. done. Qed.
Lemma child_key_inj s i s' i' : child_key s i = child_key s' i' -> s = s' /\ i = i'.
Proof.
  intros H. apply (f_equal string_bytes) in H. rewrite !child_key_bytes in H. apply sep_inj in H; [|apply pretty_no_dot..].
  destruct H as [Hs Hi]. split; [by apply string_bytes_inj|]. apply string_bytes_inj in Hi. apply (inj pretty) in Hi. lia.
Qed.
Lemma child_key_neq_nil s i : child_key s i <> "".
Proof. intros H. apply (f_equal string_bytes) in H. rewrite child_key_bytes in H. destruct (string_bytes s); done. Qed.
Lemma path_key_inj q q' : path_key q = path_key q' -> q = q'.
Proof.
  revert q'. induction q as [|i q IH] using rev_ind; intros q'; destruct q' as [|i' q' _] using rev_ind; [done| | |].
  - rewrite path_key_snoc. intros H. symmetry in H. by apply child_key_neq_nil in H.
  - rewrite path_key_snoc. intros H. by apply child_key_neq_nil in H.
  - rewrite !path_key_snoc. intros H. apply child_key_inj in H as [H ->]. f_equal. by apply IH.
Qed.

Section Facts.
  Context {D St : Type}.
  Implicit Types (v u : vtx D) (t : tree D).

  (** The vertex reached from v along q *)
  Fixpoint at_path (v : vtx D) (q : path) : option (vtx D) :=
    match q with [] => Some v | i :: q => match mget (vdesc v) i with Some u => at_path u q | None => None end end.
  (** Its data; None if there is no such vertex or its data is nil *)
  Definition data_at (v : vtx D) (q : path) : option D := match at_path v q with Some u => vdata u | None => None end.

  Lemma at_path_app v q r : at_path v (q ++ r) = match at_path v q with Some u => at_path u r | None => None end.
  Proof. revert v. induction q as [|i q IH]; intros v; [done|]. cbn. destruct (mget (vdesc v) i); [apply IH|done]. Qed.
  Lemma get_at_Some v q l w : get_at v q = Some (l, w) ->
    at_path v q = Some w /\ length l = length q /\ forall j, j < length q -> l !! j = at_path v (take j q).
  Proof.
    revert v l. induction q as [|i q IH]; intros v l; cbn [get_at at_path]; [intros [= <- <-]; split; [done|split; [done|]]; cbn; lia|].
    destruct (mget (vdesc v) i) as [u|] eqn:E; [|done]. destruct (get_at u q) as [[l' w']|] eqn:E'; [|done]. intros [= <- <-].
    destruct (IH u l' E') as (H1 & H2 & H3). split; [done|]. split; [cbn; lia|]. intros [|j] Hj; [done|]. cbn [take at_path lookup list_lookup]. rewrite E. apply H3. cbn in Hj. lia.
  Qed.
  Lemma get_at_at v q w : at_path v q = Some w -> exists l, get_at v q = Some (l, w).
  Proof.
    revert v. induction q as [|i q IH]; intros v; cbn [get_at at_path]; [intros [= <-]; eauto|].
    destruct (mget (vdesc v) i) as [u|]; [|done]. intros H. apply IH in H as [l ->]. eauto.
  Qed.
  Lemma get_at_None v q : at_path v q = None -> get_at v q = None.
  Proof. intros H. destruct (get_at v q) as [[l w]|] eqn:E; [|done]. apply get_at_Some in E as [E _]. congruence. Qed.

  Lemma rawData_spec n (m : list (nat * vtx D)) : (forall k u, mget m k = Some u -> k < n) ->
    rawData n m = Ret ((fun k => match mget m k with Some u => vdata u | None => None end) <$> seq 0 n).
  Proof.
    induction m as [|[k u] m IH]; intros H; cbn [rawData].
    - f_equal. apply list_eq. intros k. rewrite list_lookup_fmap. destruct (decide (k < n)).
      + rewrite lookup_seq_lt, lookup_replicate_2 by done. done.
      + rewrite lookup_seq_ge by lia. apply lookup_replicate_None. lia.
    - rewrite IH.
      2: { intros k' u' H'. destruct (decide (k' = k)) as [->|Hk]; [apply (H k u); cbn; by rewrite decide_True|]. apply (H k' u'). cbn. by rewrite decide_False. }
      cbn [rbind]. assert (Hk : k < n) by (apply (H k u); cbn; by rewrite decide_True). destruct (Nat.ltb_spec k n); [|lia]. f_equal.
      apply list_eq. intros i. rewrite (list_lookup_fmap _ (seq 0 n)). destruct (decide (i < n)) as [Hi|Hi].
      + rewrite lookup_seq_lt by done. cbn [fmap option_fmap option_map mget]. destruct (decide (i = k)) as [->|Hik].
        * rewrite list_lookup_insert by (rewrite fmap_length, seq_length; done). cbn. rewrite decide_True by done. done.
        * rewrite list_lookup_insert_ne, list_lookup_fmap, lookup_seq_lt by done. cbn. rewrite decide_False by done. done.
      + rewrite lookup_seq_ge by lia. apply lookup_ge_None_2. rewrite insert_length, fmap_length, seq_length. lia.
  Qed.
  Lemma rawData_bad n (m : list (nat * vtx D)) k u : mget m k = Some u -> n <= k -> rawData n m = Panic.
  Proof.
    induction m as [|[k0 u0] m IH]; [done|]. cbn [mget rawData]. intros H Hk. 
    assert (Hd : forall m' : list (nat * vtx D), rawData n m' = Panic \/ exists r, rawData n m' = Ret r).
    { clear. intros m'. induction m' as [|[k u] m' [IH|[r IH]]]; cbn [rawData].
      - right. eexists. reflexivity.
      - left. rewrite IH. done.
      - rewrite IH. cbn [rbind]. destruct (k <? n)%nat; [right; eexists; reflexivity|left; done]. }
    destruct (decide (k = k0)) as [->|].
    - destruct (Hd m) as [->|[r ->]]; [done|]. cbn [rbind]. destruct (Nat.ltb_spec k0 n); [lia|done].
    - rewrite IH by done. done.
  Qed.
  Lemma rawData_inv n (m : list (nat * vtx D)) r : rawData n m = Ret r -> (forall k u, mget m k = Some u -> k < n) /\
    r = (fun k => match mget m k with Some u => vdata u | None => None end) <$> seq 0 n.
  Proof.
    intros H. assert (Hk : forall k u, mget m k = Some u -> k < n).
    { intros k u Hu. destruct (decide (k < n)); [done|]. rewrite (rawData_bad n m k u) in H; [done|done|lia]. }
    split; [done|]. rewrite rawData_spec in H by done. congruence.
  Qed.

  (** Inversion of a Put step *)
  Definition child_or_new v s i : vtx D := match mget (vdesc v) i with Some u => u | None => Vtx (child_key s i) None [] end.
  Lemma put_at_cons_inv (upd : callback D St) F st v s i p d st' v' : put_at upd F st v s (i :: p) d = Ret (st', v') ->
    exists st1 u' x, put_at upd F st (child_or_new v s i) (child_key s i) p d = Ret (st1, u') /\
      (forall k u, mget (mset (vdesc v) i u') k = Some u -> k < F) /\
      upd st1 (vkey v) (vdata v) ((fun k => match mget (mset (vdesc v) i u') k with Some u => vdata u | None => None end) <$> seq 0 F)
        (match p with [] => true | _ => false end) i = Ret (st', x) /\
      v' = Vtx (vkey v) x (mset (vdesc v) i u').
  Proof.
    intros H. cbn [put_at] in H. apply rbind_inv in H as ([st1 u'] & H1 & H). apply rbind_inv in H as (raw & H2 & H).
    apply rbind_inv in H as ([st2 x] & H3 & H). injection H as <- <-. apply rawData_inv in H2 as [H2 ->]. exists st1, u', x. done.
  Qed.
  Lemma put_at_cons (upd : callback D St) F st v s i p d st1 u' st' x : put_at upd F st (child_or_new v s i) (child_key s i) p d = Ret (st1, u') ->
      (forall k u, mget (mset (vdesc v) i u') k = Some u -> k < F) ->
      upd st1 (vkey v) (vdata v) ((fun k => match mget (mset (vdesc v) i u') k with Some u => vdata u | None => None end) <$> seq 0 F)
        (match p with [] => true | _ => false end) i = Ret (st', x) ->
     put_at upd F st v s (i :: p) d = Ret (st', Vtx (vkey v) x (mset (vdesc v) i u')).
  Proof.
    intros H1 H2 H3. cbn [put_at]. unfold child_or_new in H1. rewrite H1. cbn [rbind]. rewrite rawData_spec by done. cbn [rbind]. rewrite H3. done.
  Qed.

  (** What a Put leaves alone: every vertex that is not on the path *)
  Lemma at_fresh s i r : at_path (Vtx s None []) (i :: r) = None.
  Proof. done. Qed.
  Lemma put_at_frame (upd : callback D St) F p : forall st v s d st' v' r, put_at upd F st v s p d = Ret (st', v') ->
    ~ r `prefix_of` p -> at_path v' r = at_path v r.
  Proof.
    induction p as [|i p IH]; intros st v s d st' v' r H Hr.
    - cbn in H. injection H as <- <-. destruct r as [|j r]; [destruct Hr; done|]. done.
    - apply put_at_cons_inv in H as (st1 & u' & x & H1 & _ & _ & ->). destruct r as [|j r]; [destruct Hr; apply prefix_nil|].
      cbn [at_path vdesc]. rewrite mget_mset. destruct (decide (j = i)) as [->|]; [|done].
      rewrite (IH _ _ _ _ _ _ r H1) by (intros Hp; apply Hr; by apply prefix_cons).
      unfold child_or_new. destruct (mget (vdesc v) i); [done|]. destruct r; [|done]. destruct Hr. apply prefix_cons, prefix_nil.
  Qed.
  Lemma put_at_last (upd : callback D St) F p : forall st v s d st' v', put_at upd F st v s p d = Ret (st', v') ->
    exists u, at_path v' p = Some u /\ vdata u = d.
  Proof.
    induction p as [|i p IH]; intros st v s d st' v' H.
    - cbn in H. injection H as <- <-. eexists. split; [done|]. done.
    - apply put_at_cons_inv in H as (st1 & u' & x & H1 & _ & _ & ->). cbn [at_path vdesc]. rewrite mget_mset, decide_True by done. by apply (IH _ _ _ _ _ _ H1).
  Qed.
  Lemma put_at_prefix (upd : callback D St) F p : forall st v s d st' v' r, put_at upd F st v s p d = Ret (st', v') -> r `prefix_of` p ->
    exists u, at_path v' r = Some u.
  Proof.
    intros st v s d st' v' r H [r' ->]. apply put_at_last in H as (u & H & _). rewrite at_path_app in H. destruct (at_path v' r); [eauto|done].
  Qed.

  (** Keys are the paths *)
  Definition keyed v (q : path) : Prop := forall r u, at_path v r = Some u -> vkey u = path_key (q ++ r).
  Lemma keyed_child v q i u : keyed v q -> mget (vdesc v) i = Some u -> keyed u (q ++ [i]).
  Proof. intros H Hu r w Hw. rewrite <- app_assoc. apply H. cbn. rewrite Hu. done. Qed.
  Lemma keyed_fresh q : keyed (Vtx (path_key q) None []) q.
  Proof. intros [|i r] u; [intros [= <-]; rewrite app_nil_r; done|done]. Qed.
  Lemma keyed_child_or_new v q i : keyed v q -> keyed (child_or_new v (path_key q) i) (q ++ [i]).
  Proof.
    intros H. unfold child_or_new. destruct (mget (vdesc v) i) as [u|] eqn:E; [by apply (keyed_child v)|]. rewrite <- path_key_snoc. apply keyed_fresh.
  Qed.
  Lemma put_at_keyed (upd : callback D St) F p : forall st v q d st' v', keyed v q -> put_at upd F st v (path_key q) p d = Ret (st', v') -> keyed v' q.
  Proof.
    induction p as [|i p IH]; intros st v q d st' v' Hv H.
    - cbn in H. injection H as <- <-. intros [|i r] u Hu; [injection Hu as <-; apply (Hv [] v); done|]. apply Hv. exact Hu.
    - apply put_at_cons_inv in H as (st1 & u' & x & H1 & _ & _ & ->). rewrite <- path_key_snoc in H1. apply IH in H1; [|by apply keyed_child_or_new].
      intros [|j r] w Hw; [injection Hw as <-; apply (Hv [] v); done|]. cbn [at_path vdesc] in Hw. rewrite mget_mset in Hw.
      destruct (decide (j = i)) as [->|]; [apply H1 in Hw; rewrite <- app_assoc in Hw; exact Hw|]. apply Hv. exact Hw.
  Qed.

  (** Child indices are below the fanout *)
  Definition in_range F v : Prop := forall r k u, at_path v (r ++ [k]) = Some u -> k < F.
  Lemma in_range_child F v i u : in_range F v -> mget (vdesc v) i = Some u -> in_range F u /\ i < F.
  Proof.
    intros H Hu. split; [|apply (H [] i u); cbn; by rewrite Hu]. intros r k w Hw. apply (H (i :: r) k w). cbn. by rewrite Hu.
  Qed.
  Lemma in_range_fresh F s : in_range F (Vtx s None []).
  Proof. intros [|? ?] k u; done. Qed.
  Lemma in_range_child_or_new F v s i : in_range F v -> in_range F (child_or_new v s i).
  Proof. intros H. unfold child_or_new. destruct (mget (vdesc v) i) as [u|] eqn:E; [by apply (in_range_child F v i)|apply in_range_fresh]. Qed.
  Lemma put_at_in_range (upd : callback D St) F p : forall st v s d st' v', in_range F v -> put_at upd F st v s p d = Ret (st', v') ->
    in_range F v' /\ Forall (fun i => i < F) p.
  Proof.
    induction p as [|i p IH]; intros st v s d st' v' Hv H.
    - cbn in H. injection H as <- <-. split; [|done]. intros [|j r] k u Hu; [apply (Hv [] k u Hu)|apply (Hv (j :: r) k u Hu)].
    - apply put_at_cons_inv in H as (st1 & u' & x & H1 & Hk & _ & ->). apply IH in H1 as [H1 H2]; [|by apply in_range_child_or_new]. split.
      + intros [|j r] k u Hu; cbn [app at_path vdesc] in Hu.
        * destruct (mget _ k) as [w|] eqn:E; [|done]. by apply (Hk k w).
        * rewrite mget_mset in Hu. destruct (decide (j = i)) as [->|]; [by apply (H1 r k u)|]. apply (Hv (j :: r) k u). exact Hu.
      + constructor; [|done]. apply (Hk i u'). rewrite mget_mset, decide_True by done. done.
  Qed.
  Lemma put_at_total (upd : callback D St) F p : (forall st k o l b i, exists y, upd st k o l b i = Ret y) ->
    forall st v s d, in_range F v ->
    (Forall (fun i => i < F) p -> exists y, put_at upd F st v s p d = Ret y) /\ (~ Forall (fun i => i < F) p -> put_at upd F st v s p d = Panic).
  Proof.
    intros Hu. induction p as [|i p IH]; intros st v s d Hv; [split; [eauto|intros H; destruct H; done]|].
    assert (Hm : forall u', i < F -> forall k u, mget (mset (vdesc v) i u') k = Some u -> k < F).
    { intros u' Hi k u. rewrite mget_mset. destruct (decide (k = i)) as [->|]; [done|]. intros Hk. by apply (in_range_child F v k u). }
    destruct (IH st (child_or_new v s i) (child_key s i) d (in_range_child_or_new F v s i Hv)) as [IH1 IH2]. split; intros H.
    - apply Forall_cons in H as [Hi H]. destruct (IH1 H) as [[st1 u'] H1].
      destruct (Hu st1 (vkey v) (vdata v) ((fun k => match mget (mset (vdesc v) i u') k with Some u => vdata u | None => None end) <$> seq 0 F) (match p with [] => true | _ => false end) i) as [[st' x] Hx].
      rewrite (put_at_cons upd F st v s i p d st1 u' st' x H1 (Hm u' Hi) Hx). eauto.
    - destruct (decide (Forall (fun i => i < F) p)) as [Hp|Hp].
      + assert (Hi : F <= i) by (destruct (decide (i < F)); [destruct H; by constructor|lia]). destruct (IH1 Hp) as [[st1 u'] H1].
        cbn [put_at]. unfold child_or_new in H1. rewrite H1. cbn [rbind]. rewrite (rawData_bad F _ i u'); [done| |done]. rewrite mget_mset, decide_True by done. done.
      + cbn [put_at]. specialize (IH2 Hp). unfold child_or_new in IH2. rewrite IH2. done.
  Qed.
End Facts.

(** ** Sums over all paths of a given length *)
Local Open Scope Z_scope.
(** Sum of f over a list *)
Definition sumZ {A} (f : A -> Z) (l : list A) : Z := foldr (fun a s => f a + s) 0 l.
Lemma sumZ_app {A} (f : A -> Z) l l' : sumZ f (l ++ l') = sumZ f l + sumZ f l'.
Proof. induction l as [|a l IH]; [done|]. cbn [app]. unfold sumZ in *. cbn [foldr]. rewrite IH. lia. Qed.
Lemma sumZ_ext {A} (f g : A -> Z) l : (forall a, a ∈ l -> f a = g a) -> sumZ f l = sumZ g l.
Proof.
  induction l as [|a l IH]; intros H; [done|]. cbn [sumZ foldr]. rewrite (H a) by left. unfold sumZ in IH. rewrite IH; [done|]. intros b Hb. apply H. right. done.
Qed.
Lemma sumZ_concat {A B} (f : B -> Z) (g : A -> list B) l : sumZ f (concat (g <$> l)) = sumZ (fun a => sumZ f (g a)) l.
Proof. induction l as [|a l IH]; [done|]. rewrite fmap_cons. cbn [concat]. rewrite sumZ_app, IH. done. Qed.
Lemma sumZ_fmap {A B} (f : B -> Z) (g : A -> B) l : sumZ f (g <$> l) = sumZ (fun a => f (g a)) l.
Proof. induction l as [|a l IH]; [done|]. rewrite fmap_cons. cbn [sumZ foldr]. unfold sumZ in IH. rewrite IH. done. Qed.
Lemma sumZ_zero {A} (f : A -> Z) l : (forall a, a ∈ l -> f a = 0) -> sumZ f l = 0.
Proof. intros H. rewrite (sumZ_ext f (fun _ => 0) l H). clear. induction l as [|a l IH]; [done|]. cbn [sumZ foldr]. unfold sumZ in IH. rewrite IH. done. Qed.
Lemma sumZ_nonneg {A} (f : A -> Z) l : (forall a, a ∈ l -> 0 <= f a) -> 0 <= sumZ f l.
Proof.
  induction l as [|a l IH]; intros H; [done|]. cbn [sumZ foldr]. unfold sumZ in IH. pose proof (H a ltac:(left)). specialize (IH (fun b Hb => H b ltac:(right; exact Hb))). lia.
Qed.
Lemma sumZ_ge_elem {A} (f : A -> Z) l a : (forall a, a ∈ l -> 0 <= f a) -> a ∈ l -> f a <= sumZ f l.
Proof.
  intros H Ha. apply elem_of_list_split in Ha as (l1 & l2 & ->). rewrite sumZ_app. cbn [sumZ foldr]. fold (sumZ f l2).
  pose proof (sumZ_nonneg f l1) as H1. pose proof (sumZ_nonneg f l2) as H2.
  assert (0 <= sumZ f l1) by (apply H1; intros b Hb; apply H; apply elem_of_app; left; done).
  assert (0 <= sumZ f l2) by (apply H2; intros b Hb; apply H; apply elem_of_app; right; right; done). lia.
Qed.

(** All paths of length h with entries below F *)
Fixpoint all_paths (F h : nat) : list path :=
  match h with O => [[]] | S h => concat ((fun i => cons i <$> all_paths F h) <$> seq 0 F) end.
Lemma elem_all_paths F h p : p ∈ all_paths F h <-> length p = h /\ Forall (fun i => i < F)%nat p.
Proof.
  revert p. induction h as [|h IH]; intros p; cbn [all_paths].
  - rewrite elem_of_list_singleton. destruct p; cbn; split; [done|done| |]; [intros H; done|intros [H _]; done].
  - rewrite elem_of_list_In, in_concat. split.
    + intros (l & Hl & Hp). apply elem_of_list_In, elem_of_list_fmap in Hl as (i & -> & Hi). apply elem_of_list_In, elem_of_list_fmap in Hp as (p' & -> & Hp').
      apply IH in Hp' as [Hlen Hp']. apply elem_of_seq in Hi. split; [cbn; lia|]. constructor; [lia|done].
    + intros [Hl Hp]. destruct p as [|i p]; [done|]. apply Forall_cons in Hp as [Hi Hp]. exists (cons i <$> all_paths F h). split; apply elem_of_list_In.
      * apply elem_of_list_fmap. exists i. split; [done|]. apply elem_of_seq. lia.
      * apply elem_of_list_fmap. exists p. split; [done|]. apply IH. cbn in Hl. split; [lia|done].
Qed.
Lemma all_paths_NoDup F h : NoDup (all_paths F h).
Proof.
  induction h as [|h IH]; cbn [all_paths]; [apply NoDup_singleton|]. generalize (NoDup_seq 0 F) as Hs. generalize (seq 0 F) as l. induction l as [|i l IHl]; intros Hs; [constructor|].
  rewrite fmap_cons. cbn [concat]. apply NoDup_cons in Hs as [Hi Hs]. apply NoDup_app. split; [apply NoDup_fmap; [|done]; by intros ? ? [= ->]|]. split; [|by apply IHl].
  intros p Hp Hp'. apply elem_of_list_fmap in Hp as (p1 & -> & _). apply elem_of_list_In, in_concat in Hp' as (l' & Hl' & Hp').
  apply elem_of_list_In, elem_of_list_fmap in Hl' as (j & -> & Hj). apply elem_of_list_In, elem_of_list_fmap in Hp' as (p2 & [= -> ->] & _). done.
Qed.

(** Total of the values that M assigns to the paths of length h *)
Definition total (F h : nat) (M : path -> option Z) : Z := sumZ (fun p => default 0 (M p)) (all_paths F h).
Lemma total_0 F M : total F 0 M = default 0 (M []).
Proof. unfold total. cbn. lia. Qed.
Lemma total_S F h M : total F (S h) M = sumZ (fun i => total F h (fun p => M (i :: p))) (seq 0 F).
Proof. unfold total. cbn [all_paths]. rewrite sumZ_concat. apply sumZ_ext. intros i _. rewrite sumZ_fmap. done. Qed.
Lemma total_ext F h M M' : (forall p, length p = h -> M p = M' p) -> total F h M = total F h M'.
Proof. intros H. apply sumZ_ext. intros p Hp. apply elem_all_paths in Hp as [Hl _]. rewrite H by done. done. Qed.
Lemma total_empty F h M : (forall p, length p = h -> M p = None) -> total F h M = 0.
Proof. intros H. apply sumZ_zero. intros p Hp. apply elem_all_paths in Hp as [Hl _]. rewrite H by done. done. Qed.
Lemma total_nonneg F h M : (forall p z, M p = Some z -> 0 <= z) -> 0 <= total F h M.
Proof. intros H. apply sumZ_nonneg. intros p _. destruct (M p) eqn:E; cbn; [by apply (H p)|lia]. Qed.

(** ** The latest value of each path *)
Section Latest.
  Context {A : Type}.
  (** In a history of (id, value) pairs, the last value given to an id with path p *)
  Fixpoint latest (pathof : string -> path) (h : list (string * A)) (p : path) : option A :=
    match h with
    | [] => None
    | (id, a) :: h => match latest pathof h p with Some b => Some b | None => if decide (pathof id = p) then Some a else None end
    end.
  Lemma latest_snoc pathof h id a p : latest pathof (h ++ [(id, a)]) p = if decide (pathof id = p) then Some a else latest pathof h p.
  Proof. induction h as [|[id' a'] h IH]; cbn [app latest]; [done|]. rewrite IH. destruct (decide (pathof id = p)); done. Qed.
  Lemma latest_elem pathof h p a : latest pathof h p = Some a -> exists id, (id, a) ∈ h /\ pathof id = p.
  Proof.
    induction h as [|[id' a'] h IH]; cbn [latest]; [done|]. destruct (latest pathof h p) as [b|].
    - intros [= ->]. destruct IH as (id & H1 & H2); [done|]. exists id. split; [by right|done].
    - destruct (decide (pathof id' = p)) as [<-|]; [|done]. intros [= ->]. exists id'. split; [left|done].
  Qed.
  Lemma latest_None pathof h p : latest pathof h p = None <-> forall id a, (id, a) ∈ h -> pathof id <> p.
  Proof.
    induction h as [|[id' a'] h IH]; cbn [latest]; [split; [intros _ id a H; by apply elem_of_nil in H|done]|]. destruct (latest pathof h p) as [b|].
    - split; [done|]. intros H. destruct IH as [_ IH]. rewrite IH; [done|]. intros id a Hin. apply (H id a). by right.
    - destruct (decide (pathof id' = p)) as [<-|Hne]; split; try done.
      + intros H. destruct (H id' a'); [left|done].
      + intros _ id a [[= -> ->]|Hin]%elem_of_cons; [done|]. by apply (proj1 IH eq_refl id a).
  Qed.
End Latest.
