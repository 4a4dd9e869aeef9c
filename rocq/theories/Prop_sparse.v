(** Properties C36-C41: the sparse tree.

    Specification: [at_path v q] is the vertex reached from v by following the child indices q, [data_at v q] its data
    (Sparse_facts.v).  [path_key q] is the key ".a.b.c". *)
From Verif Require Import Sparse_facts.

(** ** C36: keys *)
Theorem C36_keys_unique q q' : path_key q = path_key q' -> q = q'.
Proof. apply path_key_inj. Qed.
Example C36_nonvacuous : path_key [1;23] = ".1.23" /\ path_key [12;3] = ".12.3" /\ path_key [] = "" /\ path_key [0] = ".0".
Proof. done. Qed.

Section Sparse.
  Context {D St : Type}.
  Variable (upd : callback D St) (F : nat) (id2path : string -> res path).

  Definition root_of (t : tree D) : vtx D := match t with Some v => v | None => Vtx "" None [] end.
  Lemma Put_inv st t id d st' t' : Put upd F id2path st t id d = Ret (st', t') ->
    exists p v', id2path id = Ret p /\ put_at upd F st (root_of t) "" p d = Ret (st', v') /\ t' = Some v'.
  Proof.
    unfold Put. intros H. apply rbind_inv in H as (p & H1 & H). apply rbind_inv in H as ([st1 v'] & H2 & H). injection H as <- <-. eauto.
  Qed.
  Lemma Puts_snoc st t h id d : Puts upd F id2path st t (h ++ [(id, d)]) = let! '(st, t) := Puts upd F id2path st t h in Put upd F id2path st t id d.
  Proof.
    revert st t. induction h as [|[id' d'] h IH]; intros st t; cbn [app Puts].
    - cbn. destruct (Put _ _ _ _ _ _ _) as [[? ?]| |]; done.
    - destruct (Put upd F id2path st t id' d') as [[st1 t1]| |]; cbn [rbind]; [apply IH|done|done].
  Qed.

  (** ** C37: Get and Put *)
  (** After a Put, Get finds the data. *)
  Theorem C37_get_after_put st t id d st' t' : Put upd F id2path st t id d = Ret (st', t') ->
    exists vs, Get id2path t' id = Ret (Some (d, vs)).
  Proof.
    intros H. apply Put_inv in H as (p & v' & Hp & H & ->). unfold Get. rewrite Hp. cbn [rbind]. apply put_at_last in H as (u & Hu & <-).
    apply get_at_at in Hu as [l ->]. eauto.
  Qed.
  (** Ids whose path is not a prefix of the path put are not affected (in particular those whose path diverges from
      it). *)
  Theorem C37_other_ids st t id d st' t' p id' p' : Put upd F id2path st t id d = Ret (st', t') ->
    id2path id = Ret p -> id2path id' = Ret p' -> ~ p' `prefix_of` p ->
    exists r r', Get id2path t id' = Ret r /\ Get id2path t' id' = Ret r' /\ fst <$> r' = fst <$> r.
  Proof.
    intros H Hp Hp' Hpre. apply Put_inv in H as (p0 & v' & Hp0 & H & ->). rewrite Hp in Hp0. injection Hp0 as <-.
    pose proof (put_at_frame _ _ _ _ _ _ _ _ _ p' H Hpre) as Hf. unfold Get. rewrite Hp'. cbn [rbind].
    assert (Hg : forall v : vtx D, exists r, match get_at v p' with Some (l, w) => Ret (Some (vdata w, l)) | None => Ret None end = Ret r /\ fst <$> r = vdata <$> at_path v p').
    { intros v. destruct (at_path v p') as [w|] eqn:E; [apply get_at_at in E as [l ->]|rewrite get_at_None by done]; eauto. }
    destruct (Hg v') as (r' & H1 & H2). rewrite H1, Hf in *. destruct t as [v|]; cbn [root_of] in *.
    - destruct (Hg v) as (r & H3 & H4). rewrite H3. exists r, r'. split; [done|]. split; [done|]. congruence.
    - exists None, r'. split; [done|]. split; [done|]. rewrite H2. destruct p' as [|i p']; [destruct Hpre; apply prefix_nil|]. done.
  Qed.
  (** The tree starts empty. *)
  Theorem C37_empty id p : id2path id = Ret p -> Get (D:=D) id2path None id = Ret None.
  Proof. intros H. unfold Get. rewrite H. done. Qed.
  (** The vertices returned: those at the proper prefixes of the path, from the root on. *)
  Theorem C37_vertices (t : tree D) id p d (vs : list (vtx D)) : id2path id = Ret p -> Get id2path t id = Ret (Some (d, vs)) ->
    exists v : vtx D, t = Some v /\ data_at v p = d /\ length vs = length p /\ forall j, j < length p -> vs !! j = at_path v (take j p).
  Proof.
    intros Hp. unfold Get. rewrite Hp. cbn [rbind]. destruct t as [v|]; [|done]. destruct (get_at v p) as [[l w]|] eqn:E; [|done].
    intros [= <- <-]. apply get_at_Some in E as (E1 & E2 & E3). exists v. unfold data_at. rewrite E1. done.
  Qed.

  (** ** C38: the callbacks of one Put *)
  (** One call of the callback: its arguments and its result *)
  Record call := MkCall { c_key : string; c_node : option D; c_descendants : list (option D); c_leaves : bool; c_index : nat; c_result : option D }.
  (** The callback, recording its calls *)
  Definition logged : callback D (St * list call) := fun sl key node desc leaves i =>
    let! '(st, x) := upd (fst sl) key node desc leaves i in Ret ((st, snd sl ++ [MkCall key node desc leaves i x]), x).

  Lemma data_at_child (v : vtx D) i u r : mget (vdesc v) i = Some u -> data_at v (i :: r) = data_at u r.
  Proof. intros H. unfold data_at. cbn. rewrite H. done. Qed.
  Lemma data_at_child_or_new (v : vtx D) s i r : data_at (child_or_new v s i) r = data_at v (i :: r).
  Proof. unfold child_or_new, data_at. cbn [at_path]. destruct (mget (vdesc v) i); [done|]. destruct r; done. Qed.

  Definition call_ok (q p : path) (v v' : vtx D) (j : nat) (c : call) : Prop :=
    j < length p /\
    c_key c = path_key (q ++ take j p) /\
    c_node c = data_at v (take j p) /\
    c_descendants c = (fun k => data_at v' (take j p ++ [k])) <$> seq 0 F /\
    c_leaves c = (S j =? length p) /\
    p !! j = Some (c_index c) /\
    c_result c = data_at v' (take j p).
  Lemma put_at_log p : forall st log v q d st' log' v', keyed v q ->
    put_at logged F (st, log) v (path_key q) p d = Ret ((st', log'), v') ->
    put_at upd F st v (path_key q) p d = Ret (st', v') /\
    exists calls, log' = log ++ calls /\ length calls = length p /\
      forall i c, calls !! i = Some c -> call_ok q p v v' (length p - 1 - i) c.
  Proof.
    induction p as [|i p IH]; intros st log v q d st' log' v' Hk H.
    - cbn in H. injection H as <- <- <-. split; [done|]. exists []. rewrite app_nil_r. split_and!; try done.
    - apply put_at_cons_inv in H as ([st1 log1] & u' & x & H1 & Hr & Hx & ->). unfold logged in Hx. apply rbind_inv in Hx as ([st2 x'] & Hx & E).
      cbn [fst snd] in *. injection E as <- <- <-. rewrite <- path_key_snoc in H1. apply IH in H1 as [H1 (calls & -> & Hl & Hc)]; [|by apply keyed_child_or_new].
      rewrite path_key_snoc in H1. split; [by apply (put_at_cons _ _ _ _ _ _ _ _ _ _ _ _ H1 Hr Hx)|].
      eexists. rewrite <- app_assoc. split; [reflexivity|]. split; [rewrite app_length; cbn; lia|].
      intros n c Hn. cbn [length]. assert (Hd : forall r, data_at (Vtx (vkey v) x' (mset (vdesc v) i u')) (i :: r) = data_at u' r).
      { intros r. apply data_at_child. cbn. rewrite mget_mset, decide_True by done. done. }
      apply lookup_app_Some in Hn as [Hn|[Hn1 Hn2]].
      + pose proof (lookup_lt_Some _ _ _ Hn) as Hlt. apply Hc in Hn as (C1 & C2 & C3 & C4 & C5 & C6 & C7). unfold call_ok.
        replace (S (length p) - 1 - n) with (S (length p - 1 - n)) by lia. cbn [take]. split_and!.
        * cbn. lia.
        * rewrite C2, <- app_assoc. done.
        * rewrite C3, data_at_child_or_new. done.
        * rewrite C4. apply list_fmap_ext. intros _ k _. cbn [app]. rewrite Hd. done.
        * rewrite C5. cbn [length]. done.
        * rewrite <- C6. done.
        * rewrite C7, Hd. done.
      + apply list_lookup_singleton_Some in Hn2 as [Hn2 <-]. unfold call_ok. cbn [c_key c_node c_descendants c_leaves c_index c_result].
        replace (S (length p) - 1 - n) with 0 by lia. rewrite take_0, app_nil_r. split_and!; try done.
        * cbn. lia.
        * pose proof (Hk [] v Logic.eq_refl) as E. rewrite app_nil_r in E. exact E.
        * apply list_fmap_ext. intros _ k _. cbn [app]. unfold data_at. cbn. destruct (mget _ k); done.
        * cbn [length]. destruct p; done.
  Qed.

  (** Trees built by Puts *)
  Definition reachable (t : tree D) : Prop := exists st0 h st, Puts upd F id2path st0 None h = Ret (st, t).
  Lemma reachable_ind (P : tree D -> Prop) : P None -> (forall st t id d st' t', P t -> Put upd F id2path st t id d = Ret (st', t') -> P t') -> forall t, reachable t -> P t.
  Proof.
    intros H0 HS t (st0 & h & st & H). revert st t H. induction h as [|[id d] h IH] using rev_ind; intros st t H; [cbn in H; by injection H as <- <-|].
    rewrite Puts_snoc in H. apply rbind_inv in H as ([st1 t1] & H1 & H). by apply (HS st1 t1 id d st t); [apply (IH st1)|].
  Qed.
  Lemma reachable_keyed t : reachable t -> keyed (root_of t) [].
  Proof.
    revert t. apply reachable_ind; [apply (keyed_fresh [])|]. intros st t id d st' t' Ht H. apply Put_inv in H as (p & v' & _ & H & ->).
    by apply (put_at_keyed _ _ _ _ _ [] _ _ _ Ht) in H.
  Qed.
  Lemma reachable_in_range t : reachable t -> in_range F (root_of t).
  Proof.
    revert t. apply reachable_ind; [apply in_range_fresh|]. intros st t id d st' t' Ht H. apply Put_inv in H as (p & v' & _ & H & ->).
    by apply (put_at_in_range _ _ _ _ _ _ _ _ _ Ht) in H as [H _].
  Qed.

  (** A Put on path p makes exactly |p| calls.  The i-th one (from 0) is for the vertex at the prefix q of length
      |p|-1-i, i.e. from the parent of the leaf up to the root; it gets the vertex's key, its data before the Put, its
      FanOut children's data as they are after the Put, the flag on the first call only and the index of the changed
      child, and its result becomes the data of the vertex.  Recording the calls does not change the run. *)
  Theorem C38_callbacks st t id d p st' log t' : reachable t -> id2path id = Ret p ->
    Put logged F id2path (st, []) t id d = Ret ((st', log), t') ->
    Put upd F id2path st t id d = Ret (st', t') /\
    length log = length p /\
    forall i c, log !! i = Some c ->
      let q := take (length p - 1 - i) p in
      c_key c = path_key q /\
      c_node c = data_at (root_of t) q /\
      c_descendants c = (fun k => data_at (root_of t') (q ++ [k])) <$> seq 0 F /\
      c_leaves c = (i =? 0) /\
      p !! (length p - 1 - i) = Some (c_index c) /\
      c_result c = data_at (root_of t') q.
  Proof.
    intros Ht Hp H. apply reachable_keyed in Ht. unfold Put in H |- *. rewrite Hp in *. cbn [rbind] in *. apply rbind_inv in H as ([[st1 log1] v'] & H & E).
    injection E as <- <- <-. apply (put_at_log p st [] (root_of t) [] d) in H as [H (calls & -> & Hl & Hc)]; [|done].
    change (match t with Some v => v | None => Vtx "" None [] end) with (root_of t). change (path_key []) with "" in H. rewrite H. split; [done|]. split; [done|].
    intros i c Hi. pose proof (lookup_lt_Some _ _ _ Hi) as Hlt. cbn [app] in Hi. apply Hc in Hi as (C1 & C2 & C3 & C4 & C5 & C6 & C7). split_and!; try done.
    rewrite C5. cbn [app] in Hlt. destruct (Nat.eqb_spec (S (length p - 1 - i)) (length p)), (Nat.eqb_spec i 0); try done; lia.
  Qed.

  (** ** C40: panics *)
  Theorem C40_panic_iff st t id d p : (forall st k o l b i, exists y, upd st k o l b i = Ret y) ->
    reachable t -> id2path id = Ret p ->
    (Put upd F id2path st t id d = Panic <-> exists i, i ∈ p /\ F <= i) /\
    ((forall i, i ∈ p -> i < F) -> exists st' t', Put upd F id2path st t id d = Ret (st', t')).
  Proof.
    intros Hu Ht Hp. apply reachable_in_range in Ht. unfold Put. rewrite Hp. cbn [rbind].
    change (match t with Some v => v | None => Vtx "" None [] end) with (root_of t).
    destruct (put_at_total upd F p Hu st (root_of t) "" d Ht) as [H1 H2]. destruct (decide (Forall (fun i => i < F) p)) as [Hf|Hf].
    - destruct (H1 Hf) as [[st' v'] ->]. cbn [rbind]. split; [|eauto]. split; [done|]. intros (i & Hi & Hge). rewrite Forall_forall in Hf. apply Hf in Hi. lia.
    - rewrite (H2 Hf). split; [split; [|done]|intros H; destruct Hf; by apply Forall_forall]. intros _.
      apply not_Forall_Exists in Hf; [|apply _]. apply Exists_exists in Hf as (i & Hi & Hge). exists i. split; [done|]. cbn in Hge. lia.
  Qed.
End Sparse.

(** ** C39: aggregation *)
(** The summing callback: the new data is the sum of the children's data *)
Definition sum_callback : callback Z unit := fun st _ _ desc _ _ => Ret (st, Some (sumZ (fun o => default 0%Z o) desc)).

Fixpoint SumInv (F h : nat) (v : vtx Z) (M : path -> option Z) : Prop :=
  match h with
  | O => vdata v = M [] /\ vdata v <> None
  | S h => vdata v = Some (total F (S h) M) /\
    forall i, match mget (vdesc v) i with
              | Some u => i < F /\ SumInv F h u (fun p => M (i :: p))
              | None => forall p, length p = h -> M (i :: p) = None
              end
  end.
(** Like SumInv, but any data is allowed in v itself: also true of new vertices *)
Definition SumPre (F h : nat) (v : vtx Z) (M : path -> option Z) : Prop :=
  match h with
  | O => True
  | S h =>
    forall i, match mget (vdesc v) i with
              | Some u => i < F /\ SumInv F h u (fun p => M (i :: p))
              | None => forall p, length p = h -> M (i :: p) = None
              end
  end.
Lemma SumInv_Pre F h v M : SumInv F h v M -> SumPre F h v M.
Proof. destruct h; [done|]. intros [_ H]. exact H. Qed.
Lemma SumInv_data F h v M : SumInv F h v M -> vdata v = Some (total F h M).
Proof. destruct h; cbn [SumInv]; [|intros [H _]; exact H]. intros [H1 H2]. rewrite total_0, H1. rewrite H1 in H2. destruct (M []); done. Qed.
Lemma SumInv_ext F h v M M' : (forall p, length p = h -> M p = M' p) -> SumInv F h v M -> SumInv F h v M'.
Proof.
  revert v M M'. induction h as [|h IH]; intros v M M' HM H; cbn [SumInv] in *; [rewrite <- (HM []) by done; done|]. destruct H as [H1 H2]. split.
  - rewrite H1. f_equal. by apply total_ext.
  - intros i. specialize (H2 i). destruct (mget (vdesc v) i) as [u|].
    + destruct H2 as [Hi H2]. split; [done|]. apply (IH u (fun p => M (i :: p))); [|done]. intros p Hp. apply HM. cbn. lia.
    + intros p Hp. rewrite <- HM by (cbn; lia). by apply H2.
Qed.
Definition upd_path (M : path -> option Z) (p : path) (z : Z) : path -> option Z := fun q => if decide (p = q) then Some z else M q.
Lemma sum_put F p : forall st v s M z st' v', SumPre F (length p) v M ->
  put_at sum_callback F st v s p (Some z) = Ret (st', v') -> SumInv F (length p) v' (upd_path M p z).
Proof.
  induction p as [|i p IH]; intros st v s M z st' v' Hv H.
  - cbn in H. injection H as <- <-. cbn. unfold upd_path. rewrite decide_True by done. done.
  - apply put_at_cons_inv in H as (st1 & u' & x & H1 & Hr & Hx & ->). cbn [length] in *.
    apply (IH _ _ _ (fun q => M (i :: q))) in H1.
    2: { unfold child_or_new. specialize (Hv i). destruct (mget (vdesc v) i) as [u|]; [destruct Hv as [_ Hv]; by apply SumInv_Pre|].
         destruct (length p) as [|h]; [done|]. intros j. cbn. intros q Hq. apply Hv. cbn. lia. }
    assert (Hch : forall j, match mget (mset (vdesc v) i u') j with
              | Some u => j < F /\ SumInv F (length p) u (fun q => upd_path M (i :: p) z (j :: q))
              | None => forall q, length q = length p -> upd_path M (i :: p) z (j :: q) = None end).
    { intros j. pose proof (Hr j) as Hj. rewrite mget_mset in *. destruct (decide (j = i)) as [->|Hne].
      - split; [by apply (Hj u')|]. apply (SumInv_ext F _ _ (upd_path (fun q => M (i :: q)) p z)); [|done]. intros q _. unfold upd_path.
        destruct (decide (p = q)), (decide (i :: p = i :: q)); congruence.
      - specialize (Hv j). destruct (mget (vdesc v) j) as [u|].
        + split; [apply Hv|]. apply (SumInv_ext F _ _ (fun q => M (j :: q))); [|apply Hv]. intros q _. unfold upd_path. rewrite decide_False by congruence. done.
        + intros q Hq. unfold upd_path. rewrite decide_False by congruence. by apply Hv. }
    split; [|exact Hch]. unfold sum_callback in Hx. injection Hx as <- <-. cbn [vdata]. f_equal. rewrite total_S, sumZ_fmap. apply sumZ_ext. intros j _.
    specialize (Hch j). destruct (mget _ j) as [u|]; [destruct Hch as [_ Hch]; rewrite (SumInv_data _ _ _ _ Hch); done|].
    cbn. symmetry. by apply total_empty.
Qed.
Lemma SumInv_at F q : forall h v M, SumInv F (length q + h) v M ->
  match at_path v q with
  | Some u => SumInv F h u (fun p => M (q ++ p))
  | None => forall p, length p = h -> M (q ++ p) = None
  end.
Proof.
  induction q as [|i q IH]; intros h v M H; [exact H|]. cbn [length Nat.add SumInv] in H. destruct H as [_ H]. specialize (H i). cbn [at_path].
  destruct (mget (vdesc v) i) as [u|]; [destruct H as [_ H]; apply (IH h u _ H)|]. intros p Hp. cbn [app]. apply H. rewrite app_length. lia.
Qed.

(** Histories of Puts of numbers *)
Definition nums (h : list (string * Z)) : list (string * option Z) := (fun '(id, z) => (id, Some z)) <$> h.
Lemma sum_history F id2path pathof n h st t : 
  (forall id z, (id, z) ∈ h -> id2path id = Ret (pathof id) /\ length (pathof id) = n) ->
  Puts sum_callback F id2path tt None (nums h) = Ret (st, t) -> h <> [] ->
  exists v, t = Some v /\ SumInv F n v (latest pathof h).
Proof.
  revert st t. induction h as [|[id z] h IH] using rev_ind; intros st t Hh H Hne; [done|]. clear Hne.
  unfold nums in H. rewrite fmap_app in H. cbn [fmap list_fmap] in H. rewrite Puts_snoc in H. apply rbind_inv in H as ([st1 t1] & H1 & H).
  apply Put_inv in H as (p & v' & Hp & H & ->). exists v'. split; [done|].
  destruct (Hh id z) as [Hp' Hn]; [apply elem_of_app; right; left|]. rewrite Hp in Hp'. injection Hp' as ->. rewrite <- Hn in *.
  assert (Hpre : SumPre F (length (pathof id)) (root_of t1) (latest pathof h)).
  { destruct h as [|x h]; [cbn in H1; injection H1 as <- <-; cbn; destruct (length (pathof id)); done|].
    destruct (IH st1 t1) as (v & -> & Hv); [|done|done|by apply SumInv_Pre]. intros id' z' Hin. apply (Hh id' z'). apply elem_of_app. by left. }
  apply (sum_put F (pathof id) _ _ _ _ _ _ _ Hpre) in H. apply (SumInv_ext F _ _ _ _ (fun q _ => Logic.eq_sym (latest_snoc pathof h id z q))). exact H.
Qed.
(** After any history of Puts on ids whose paths have the same length n, the data of every vertex, at depth |q| <= n,
    is the sum of the latest values of all ids below it; there is no vertex where there are no ids. *)
Theorem C39_aggregation F id2path pathof n h st t q :
  (forall id z, (id, z) ∈ h -> id2path id = Ret (pathof id) /\ length (pathof id) = n) ->
  Puts sum_callback F id2path tt None (nums h) = Ret (st, t) -> h <> [] -> length q <= n ->
  exists v, t = Some v /\
  match at_path v q with
  | Some u => vdata u = Some (total F (n - length q) (fun p => latest pathof h (q ++ p)))
  | None => forall id z, (id, z) ∈ h -> ~ q `prefix_of` pathof id
  end.
Proof.
  intros Hh H Hne Hq. destruct (sum_history F id2path pathof n h st t Hh H Hne) as (v & -> & Hv). exists v. split; [done|].
  replace n with (length q + (n - length q)) in Hv by lia. apply SumInv_at in Hv. destruct (at_path v q) as [u|]; [by apply SumInv_data|].
  intros id z Hin [p Hp]. destruct (Hh id z Hin) as [_ Hl]. rewrite Hp, app_length in Hl. specialize (Hv p ltac:(lia)).
  apply (proj1 (latest_None pathof h (q ++ p)) Hv id z Hin). done.
Qed.

(** ** C41: the serialized stream *)
Section Stream.
  Context {D : Type}.
  (** A reader of the stream: 32-byte headers (the length in the first four bytes), each followed by a DER sequence of
      a printable string and an octet string *)
  Definition parse_rec (r : bytes) : option (bytes * bytes) :=
    match der_read tag_sequence r with
    | Some (c, []) =>
      match der_read tag_printable c with
      | Some (p, c) => match der_read tag_octets c with Some (b, []) => Some (p, b) | _ => None end
      | None => None
      end
    | _ => None
    end.
  Fixpoint parse_stream (fuel : nat) (bs : bytes) : option (list (bytes * bytes)) :=
    match bs with
    | [] => Some []
    | _ =>
      match fuel with
      | O => None
      | S fuel =>
        if length bs <? 32 then None else
        let n := Z.to_nat (be_val (take 4 bs)) in
        let body := drop 32 bs in
        if length body <? n then None else
        match parse_rec (take n body), parse_stream fuel (drop n body) with
        | Some r, Some l => Some (r :: l)
        | _, _ => None
        end
      end
    end.
  Definition read_stream (bs : bytes) : option (list (bytes * bytes)) := parse_stream (length bs) bs.

  Lemma parse_stream_len n bs x : parse_stream n bs = Some x -> forall m, length bs <= m -> parse_stream m bs = Some x.
  Proof.
    revert bs x. induction n as [|n IH]; intros bs x H m Hm.
    - destruct bs; [|done]. destruct m; done.
    - destruct bs as [|b bs]; [destruct m; done|]. destruct m as [|m]; [cbn in Hm; lia|]. 
      set (B := b :: bs) in *. change (parse_stream (S n) B) with (if length B <? 32 then None else
        if length (drop 32 B) <? Z.to_nat (be_val (take 4 B)) then None else
        match parse_rec (take (Z.to_nat (be_val (take 4 B))) (drop 32 B)), parse_stream n (drop (Z.to_nat (be_val (take 4 B))) (drop 32 B)) with
        | Some r, Some l => Some (r :: l) | _, _ => None end) in H.
      change (parse_stream (S m) B) with (if length B <? 32 then None else
        if length (drop 32 B) <? Z.to_nat (be_val (take 4 B)) then None else
        match parse_rec (take (Z.to_nat (be_val (take 4 B))) (drop 32 B)), parse_stream m (drop (Z.to_nat (be_val (take 4 B))) (drop 32 B)) with
        | Some r, Some l => Some (r :: l) | _, _ => None end).
      destruct (Nat.ltb_spec (length B) 32) as [|HB]; [done|]. destruct (_ <? _); [done|]. destruct (parse_rec _); [|done].
      destruct (parse_stream n _) as [l|] eqn:E; [|done]. rewrite (IH _ _ E m); [done|]. rewrite !drop_length. lia.
  Qed.
  Lemma parse_record s b n rest rs : (Z.of_nat (length b + String.length s) + 12 < 2 ^ 31)%Z -> parse_stream n rest = Some rs ->
    parse_stream (S n) (ser_record s b ++ rest) = Some ((string_bytes s, b) :: rs).
  Proof.
    intros Hlen Hr. unfold ser_record. cbv zeta. 
    assert (Hs : length (string_bytes s) = String.length s) by (clear; induction s; cbn; congruence).
    set (r := der_seq [der_printable (string_bytes s); der_octets b]) in *.
    assert (Hpo : parse_rec r = Some (string_bytes s, b) /\ (Z.of_nat (length r) < 2 ^ 32)%Z).
    { assert (Hc : (Z.of_nat (length (der_printable (string_bytes s) ++ der_octets b)) < 2 ^ 31)%Z).
      { unfold der_printable, der_octets, der_tlv. rewrite app_length. cbn [length]. rewrite !app_length, Hs.
        pose proof (der_len_length (Z.of_nat (String.length s)) ltac:(lia)). pose proof (der_len_length (Z.of_nat (length b)) ltac:(lia)). lia. }
      split.
      - unfold parse_rec, r, der_seq. cbn [concat]. rewrite app_nil_r. rewrite <- (app_nil_r (der_tlv tag_sequence _)), der_read_tlv by done.
        unfold der_printable at 1. rewrite der_read_tlv by lia. unfold der_octets. rewrite <- (app_nil_r (der_tlv tag_octets b)), der_read_tlv by lia. done.
      - unfold r, der_seq, der_tlv. cbn [concat]. rewrite app_nil_r. cbn [length]. rewrite app_length.
        pose proof (der_len_length (Z.of_nat (length (der_printable (string_bytes s) ++ der_octets b))) ltac:(lia)). lia. }
    destruct Hpo as [Hpr Hlr]. clearbody r. unfold ser_header. rewrite Z.mod_small by lia. 
    pose proof (be_bytes_length 4 (Z.of_nat (length r))) as H4. pose proof (be_val_be_bytes 4 (Z.of_nat (length r)) ltac:(change (256 ^ Z.of_nat 4)%Z with (2 ^ 32)%Z; lia)) as Hv.
    destruct (be_bytes 4 (Z.of_nat (length r))) as [|b0 [|b1 [|b2 [|b3 [|]]]]]; try done. cbn [app].
    set (B := b0 :: b1 :: b2 :: b3 :: (replicate 28 0%Z ++ r) ++ rest).
    assert (E4 : take 4 B = [b0; b1; b2; b3]) by reflexivity.
    assert (ED : drop 32 B = r ++ rest) by reflexivity.
    change (parse_stream (S n) B) with (if length B <? 32 then None else
        if length (drop 32 B) <? Z.to_nat (be_val (take 4 B)) then None else
        match parse_rec (take (Z.to_nat (be_val (take 4 B))) (drop 32 B)), parse_stream n (drop (Z.to_nat (be_val (take 4 B))) (drop 32 B)) with
        | Some r, Some l => Some (r :: l) | _, _ => None end).
    rewrite E4, ED, Hv, Nat2Z.id, take_app, drop_app, Hpr, Hr. destruct (Nat.ltb_spec (length B) 32) as [HB|_].
    { unfold B in HB. cbn [length app replicate] in HB. lia. }
    rewrite app_length. destruct (Nat.ltb_spec (length r + length rest) (length r)); [lia|done].
  Qed.

  (** Induction on vertices *)
  Fixpoint vtx_ind' (P : vtx D -> Prop) (H : forall k d m, Forall (fun ku => P (snd ku)) m -> P (Vtx k d m)) (v : vtx D) : P v :=
    match v with
    | Vtx k d m => H k d m ((fix go (m : list (nat * vtx D)) : Forall (fun ku => P (snd ku)) m :=
                              match m with [] => Forall_nil_2 _ | ku :: m => Forall_cons_2 _ ku m (vtx_ind' P H (snd ku)) (go m) end) m)
    end.
  (** Maps have one entry per key *)
  Definition unique_keys (v : vtx D) : Prop := forall q u, at_path v q = Some u -> NoDup (vdesc u).*1.
  Lemma elem_mget_iff (m : list (nat * vtx D)) k u : NoDup m.*1 -> (k, u) ∈ m <-> mget m k = Some u.
  Proof.
    intros Hn. split; [|apply mget_elem]. induction m as [|[k0 u0] m IH]; [by rewrite elem_of_nil|]. rewrite fmap_cons, NoDup_cons in Hn. destruct Hn as [Hn0 Hn].
    rewrite elem_of_cons. cbn [mget]. intros [[= -> ->]|Hin]; [by rewrite decide_True|]. rewrite decide_False; [by apply IH|]. intros ->. destruct Hn0.
    apply elem_of_list_fmap. by exists (k0, u).
  Qed.
  Lemma unique_child v i u : unique_keys v -> mget (vdesc v) i = Some u -> unique_keys u.
  Proof. intros H Hu q w Hw. apply (H (i :: q) w). cbn. by rewrite Hu. Qed.

  Variable order : string -> list (nat * bytes) -> list (nat * bytes).
  Hypothesis order_perm : forall s l, order s l ≡ₚ l.
  Variable f : option D -> bytes.

  (** Sizes that fit Go's length fields *)
  Definition sizes_ok (q : path) (v : vtx D) : Prop :=
    forall r u, at_path v r = Some u -> (Z.of_nat (length (f (vdata u)) + String.length (path_key (q ++ r))) + 12 < 2 ^ 31)%Z.

  Definition stream_ok (q : path) (v : vtx D) (out : bytes) (qs : list (path * bytes)) : Prop :=
    (forall n rest rs, parse_stream n rest = Some rs ->
      parse_stream (length qs + n) (out ++ rest) = Some (((fun rb => (string_bytes (path_key (q ++ fst rb)), snd rb)) <$> qs) ++ rs)) /\
    NoDup qs.*1 /\
    (forall r b, (r, b) ∈ qs <-> exists u, at_path v r = Some u /\ b = f (vdata u)).

  Lemma stream_children q (v : vtx D) l : NoDup l.*1 -> 
    (forall k out, (k, out) ∈ l -> exists u qs, mget (vdesc v) k = Some u /\ stream_ok (q ++ [k]) u out qs) ->
    exists qs, (forall n rest rs, parse_stream n rest = Some rs ->
        parse_stream (length qs + n) (concat (map snd l) ++ rest) = Some (((fun rb => (string_bytes (path_key (q ++ fst rb)), snd rb)) <$> qs) ++ rs)) /\
      NoDup qs.*1 /\
      (forall r b, (r, b) ∈ qs <-> exists k r' u, k ∈ l.*1 /\ r = k :: r' /\ at_path v r = Some u /\ b = f (vdata u)).
  Proof.
    induction l as [|[k out] l IH]; intros Hn Hl.
    - exists []. split; [done|]. split; [constructor|]. intros r b. rewrite elem_of_nil. split; [done|]. intros (k & r' & u & Hk & _). by apply elem_of_nil in Hk.
    - rewrite fmap_cons, NoDup_cons in Hn. cbn [fst] in Hn. destruct Hn as [Hk Hn]. destruct IH as (qs & H1 & H2 & H3); [done| |].
      { intros k' out' Hin. apply Hl. by right. }
      destruct (Hl k out ltac:(left)) as (u & qk & Hu & S1 & S2 & S3).
      exists (((fun rb => (k :: fst rb, snd rb)) <$> qk) ++ qs). split_and!.
      + intros n rest rs Hr. cbn [map concat snd]. rewrite <- app_assoc, app_length, fmap_length, <- Nat.add_assoc.
        rewrite (S1 _ _ _ (H1 n rest rs Hr)). f_equal. rewrite fmap_app, app_assoc. f_equal. f_equal. rewrite <- list_fmap_compose. apply list_fmap_ext. intros _ [r b] _. cbn. rewrite <- app_assoc. done.
      + rewrite fmap_app. apply NoDup_app. split_and!; [| |done].
        * rewrite <- list_fmap_compose. replace (fst ∘ (fun rb : path * bytes => (k :: fst rb, snd rb)) <$> qk) with (cons k <$> qk.*1); [apply NoDup_fmap; [by intros ? ? [= ->]|done]|].
          rewrite <- list_fmap_compose. done.
        * intros r Hr Hr'. apply elem_of_list_fmap in Hr as ([r1 b1] & -> & Hr). apply elem_of_list_fmap in Hr as ([r2 b2] & [= -> ->] & Hr). cbn [fst] in *.
          apply elem_of_list_fmap in Hr' as ([r3 b3] & E & Hr'). cbn in E. subst r3. apply H3 in Hr' as (k' & r' & u' & Hk' & [= -> ->] & _). done.
      + intros r b. rewrite elem_of_app, H3. split.
        * intros [Hr|(k' & r' & u' & Hk' & -> & Hu' & ->)].
          -- apply elem_of_list_fmap in Hr as ([r1 b1] & [= -> ->] & Hr). apply S3 in Hr as (w & Hw & E). cbn in E. exists k, r1, w. split; [rewrite fmap_cons; left|]. cbn [at_path fst snd]. rewrite Hu. done.
          -- exists k', r', u'. split; [rewrite fmap_cons; right; done|done].
        * intros (k' & r' & u' & Hk' & -> & Hu' & ->). rewrite fmap_cons in Hk'. cbn [fst] in Hk'. apply elem_of_cons in Hk' as [->|Hk'].
          -- left. apply elem_of_list_fmap. exists (r', f (vdata u')). split; [done|]. apply S3. cbn in Hu'. rewrite Hu in Hu'. eauto.
          -- right. exists k', r', u'. done.
  Qed.

  Lemma stream_vertex v : forall q, unique_keys v -> sizes_ok q v -> exists qs, stream_ok q v (Serialize order f v (path_key q)) qs.
  Proof.
    induction v as [k d m IH] using vtx_ind'. intros q Hu Hs. cbn [Serialize].
    set (out := map (fun ku : nat * vtx D => (fst ku, Serialize order f (snd ku) (child_key (path_key q) (fst ku)))) m).
    assert (Hm : NoDup m.*1) by (apply (Hu [] _ Logic.eq_refl)).
    assert (Hfst : out.*1 = m.*1) by (unfold out; clear; induction m as [|x m IH]; [done|]; cbn; f_equal; exact IH).
    assert (Hop : (order (path_key q) out).*1 ≡ₚ m.*1) by (rewrite <- Hfst; apply fmap_Permutation, order_perm).
    destruct (stream_children q (Vtx k d m) (order (path_key q) out)) as (qs & H1 & H2 & H3).
    { rewrite Hop. done. }
    { intros k' o Hin. rewrite (order_perm _ out) in Hin. unfold out in Hin. apply elem_of_list_In, in_map_iff in Hin as ([k1 u] & [= <- <-] & Hin). cbn [fst snd].
      apply elem_of_list_In in Hin. rewrite Forall_forall in IH. pose proof (IH _ Hin (q ++ [k1])) as IHu. cbn [snd] in IHu. rewrite <- path_key_snoc.
      assert (Hg : mget m k1 = Some u) by (by apply elem_mget_iff).
      destruct IHu as [qs Hqs].
      - apply (unique_child (Vtx k d m) k1); [done|]. exact Hg.
      - intros r w Hw. rewrite <- app_assoc. apply Hs. cbn. rewrite Hg. done.
      - exists u, qs. split; [exact Hg|done]. }
    exists (([], f d) :: qs). split_and!.
    - intros n rest rs Hr. rewrite <- app_assoc. cbn [length Nat.add]. rewrite fmap_cons. cbn [fst snd app]. rewrite app_nil_r. apply parse_record; [|by apply H1].
      specialize (Hs [] _ Logic.eq_refl). rewrite app_nil_r in Hs. exact Hs.
    - rewrite fmap_cons. cbn [fst]. apply NoDup_cons. split; [|done]. intros Hin. apply elem_of_list_fmap in Hin as ([r b] & E & Hin). cbn in E. subst r.
      apply H3 in Hin as (k' & r' & u' & _ & E & _). done.
    - intros r b. rewrite elem_of_cons, H3. split.
      + intros [[= -> ->]|(k' & r' & u' & _ & -> & Hu' & ->)]; [exists (Vtx k d m); done|eauto].
      + intros (u & Hu' & ->). destruct r as [|k' r]; [left; cbn in Hu'; injection Hu' as <-; done|]. right. exists k', r, u. split_and!; try done.
        rewrite Hop. cbn in Hu'. destruct (mget m k') eqn:E; [|done]. apply mget_elem in E. apply elem_of_list_fmap. eexists. split; [|exact E]. done.
  Qed.
End Stream.

Lemma mset_keys {A} (m : list (nat * A)) k a : NoDup m.*1 -> NoDup (mset m k a).*1.
Proof.
  assert (Hin : forall x, x ∈ (mset m k a).*1 -> x = k \/ x ∈ m.*1).
  { induction m as [|[k0 a0] m IH]; intros x; cbn [mset]; [cbn; rewrite elem_of_list_singleton; auto|].
    destruct (decide (k = k0)) as [->|]; rewrite !fmap_cons; cbn [fst]; rewrite !elem_of_cons; [tauto|]. intros [->|Hx]; [tauto|]. apply IH in Hx. tauto. }
  induction m as [|[k0 a0] m IH]; intros Hn; cbn [mset]; [cbn; apply NoDup_singleton|]. 
  destruct (decide (k = k0)) as [->|]; rewrite !fmap_cons in *; cbn [fst] in *; [done|]. apply NoDup_cons in Hn as [Hn0 Hn]. apply NoDup_cons.
  assert (Hin' : forall x, x ∈ (mset m k a).*1 -> x = k \/ x ∈ m.*1).
  { clear. induction m as [|[k0 a0] m IH]; intros x; cbn [mset]; [cbn; rewrite elem_of_list_singleton; auto|].
    destruct (decide (k = k0)) as [->|]; rewrite !fmap_cons; cbn [fst]; rewrite !elem_of_cons; [tauto|]. intros [->|Hx]; [tauto|]. apply IH in Hx. tauto. }
  split; [intros Hx; apply Hin' in Hx as [->|Hx]; done|]. apply IH; [exact Hin'|done].
Qed.
Lemma reachable_unique {D St} (upd : callback D St) F id2path t : reachable upd F id2path t -> unique_keys (root_of t).
Proof.
  revert t. apply reachable_ind.
  - intros [|i q] u Hu; [injection Hu as <-; constructor|done].
  - intros st t id d st' t' Ht H. apply Put_inv in H as (p & v' & _ & H & ->). cbn [root_of]. revert H Ht. generalize "" as s, (root_of t) as v. clear.
    revert st st' v'. induction p as [|i p IH]; intros st st' v' s v H Hv.
    + cbn in H. injection H as <- <-. intros [|j q] u Hu; [injection Hu as <-; apply (Hv [] v Logic.eq_refl)|]. apply (Hv (j :: q) u Hu).
    + apply put_at_cons_inv in H as (st1 & u' & x & H1 & _ & _ & ->). apply IH in H1.
      2: { unfold child_or_new. destruct (mget (vdesc v) i) as [u|] eqn:E; [by apply (unique_child v i)|]. intros [|j q] u Hu; [injection Hu as <-; constructor|done]. }
      intros [|j q] u Hu; [injection Hu as <-; apply mset_keys, (Hv [] v Logic.eq_refl)|]. cbn [at_path vdesc] in Hu. rewrite mget_mset in Hu.
      destruct (decide (j = i)) as [->|]; [by apply (H1 q u)|]. apply (Hv (j :: q) u). exact Hu.
Qed.

(** The stream of a tree built by Puts parses back, whatever the order of the children, to exactly one record per vertex:
    its path and the bytes of its data.  (Sizes: below the limit of Go's own decoder.) *)
Theorem C41_stream {D St} (upd : callback D St) F id2path (v : vtx D) (order : string -> list (nat * bytes) -> list (nat * bytes)) (f : option D -> bytes) :
  reachable upd F id2path (Some v) -> (forall s l, order s l ≡ₚ l) ->
  (forall q u, at_path v q = Some u -> (Z.of_nat (length (f (vdata u)) + String.length (path_key q)) + 12 < 2 ^ 31)%Z) ->
  exists recs : list (path * bytes),
    read_stream (Serialize order f v "") = Some ((fun rb => (string_bytes (path_key (fst rb)), snd rb)) <$> recs) /\
    NoDup recs.*1 /\
    (forall q b, (q, b) ∈ recs <-> exists u, at_path v q = Some u /\ b = f (vdata u)).
Proof.
  intros Ht Ho Hs. apply reachable_unique in Ht. destruct (stream_vertex order Ho f v [] Ht Hs) as (qs & H1 & H2 & H3). exists qs. split; [|done].
  specialize (H1 0 [] [] Logic.eq_refl). rewrite !app_nil_r in H1. unfold read_stream. by apply (parse_stream_len _ _ _ H1).
Qed.

(** ** The hypotheses can be met *)
(** Ids a, b, c with two-step paths; fanout 3 *)
Definition ex_path (id : string) : path := if decide (id = "a") then [0;1] else if decide (id = "b") then [0;2] else [2;2].
Definition ex_id2path (id : string) : res path := Ret (ex_path id).
Definition ex_history : list (string * Z) := [("a", 5%Z); ("b", 7%Z); ("c", 1%Z); ("a", 6%Z)].
Definition ex_tree : vtx Z := Vtx "" (Some 14%Z)
  [(0, Vtx ".0" (Some 13%Z) [(1, Vtx ".0.1" (Some 6%Z) []); (2, Vtx ".0.2" (Some 7%Z) [])]);
   (2, Vtx ".2" (Some 1%Z) [(2, Vtx ".2.2" (Some 1%Z) [])])].
Lemma ex_run : Puts sum_callback 3 ex_id2path tt None (nums ex_history) = Ret (tt, Some ex_tree).
Proof. vm_compute. done. Qed.
Lemma ex_reachable : reachable sum_callback 3 ex_id2path (Some ex_tree).
Proof. exists tt, (nums ex_history), tt. exact ex_run. Qed.
Example C37_nonvacuous : exists st' t', Put sum_callback 3 ex_id2path tt (Some ex_tree) "b" (Some 9%Z) = Ret (st', t') /\
  Get ex_id2path (Some ex_tree) "b" = Ret (Some (Some 7%Z, [ex_tree; Vtx ".0" (Some 13%Z) [(1, Vtx ".0.1" (Some 6%Z) []); (2, Vtx ".0.2" (Some 7%Z) [])]])) /\
  ex_id2path "c" = Ret [2;2] /\ ~ [2;2] `prefix_of` [0;2].
Proof. eexists _, _. split; [vm_compute; reflexivity|]. split; [reflexivity|]. split; [reflexivity|]. intros [k Hk]. discriminate Hk. Qed.
Example C38_nonvacuous : exists log t', Put (logged sum_callback) 3 ex_id2path (tt, []) (Some ex_tree) "b" (Some 9%Z) = Ret ((tt, log), t') /\
  log = [MkCall ".0" (Some 13%Z) [None; Some 6%Z; Some 9%Z] true 2 (Some 15%Z); MkCall "" (Some 14%Z) [Some 15%Z; None; Some 1%Z] false 0 (Some 16%Z)].
Proof. eexists _, _. split; [vm_compute; reflexivity|]. reflexivity. Qed.
Example C39_nonvacuous : (forall id z, (id, z) ∈ ex_history -> ex_id2path id = Ret (ex_path id) /\ length (ex_path id) = 2) /\
  Puts sum_callback 3 ex_id2path tt None (nums ex_history) = Ret (tt, Some ex_tree) /\
  total 3 1 (fun p => latest ex_path ex_history ([0] ++ p)) = 13%Z.
Proof.
  split; [|split; [exact ex_run|vm_compute; reflexivity]]. intros id z H. split; [done|]. unfold ex_path. repeat destruct (decide _); done.
Qed.
Example C40_nonvacuous : (forall st k o l b i, exists y, sum_callback st k o l b i = Ret y) /\ reachable sum_callback 2 ex_id2path None /\
  Put sum_callback 2 ex_id2path tt None "c" (Some 1%Z) = Panic.
Proof. split; [unfold sum_callback; eauto|]. split; [exists tt, [], tt; done|]. vm_compute. done. Qed.
Example C41_nonvacuous : reachable sum_callback 3 ex_id2path (Some ex_tree) /\ (forall s l, (fun (_ : string) (l : list (nat * bytes)) => reverse l) s l ≡ₚ l) /\
  (forall q u, at_path ex_tree q = Some u -> (Z.of_nat (length ((fun _ : option Z => [7%Z]) (vdata u)) + String.length (path_key q)) + 12 < 2 ^ 31)%Z).
Proof.
  split; [exact ex_reachable|]. split; [intros; apply reverse_Permutation|]. intros q u Hu. cbn [length].
  assert (Hq : In q [[]; [0]; [2]; [0;1]; [0;2]; [2;2]]).
  { destruct q as [|i q]; [left; done|]. cbn in Hu. destruct (decide (i = 0)) as [->|].
    - destruct q as [|j q]; [right; left; done|]. cbn in Hu. destruct (decide (j = 1)) as [->|]; [destruct q; [cbn; tauto|done]|].
      destruct (decide (j = 2)) as [->|]; [destruct q; [cbn; tauto|done]|done].
    - destruct (decide (i = 2)) as [->|]; [|done]. destruct q as [|j q]; [cbn; tauto|]. cbn in Hu. destruct (decide (j = 2)) as [->|]; [destruct q; [cbn; tauto|done]|done]. }
  cbn [In] in Hq. repeat (destruct Hq as [<-|Hq]; [vm_compute; reflexivity|]). done.
Qed.

Print Assumptions C36_keys_unique.
Print Assumptions C37_get_after_put.
Print Assumptions C37_other_ids.
Print Assumptions C37_empty.
Print Assumptions C37_vertices.
Print Assumptions C38_callbacks.
Print Assumptions C39_aggregation.
Print Assumptions C40_panic_iff.
Print Assumptions C41_stream.
