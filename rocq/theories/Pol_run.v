(** Sequences of calls on a liability set. *)
From Verif Require Export Model_pol Pol_params Prop_pp Verkle_run Prop_verkle.
Local Open Scope Zr_scope.

Section Calls.
  Context {C : Curve}.
  (** The calls of the API of a liability set; the random values of ProveLiability are given *)
  Inductive call : Type :=
  | CSet (id : string) (z : Z) | CGet (id : string) | CRoot | CProveTot | CProveLiability (co : ProofCoins) (id : string).
  (** The Sets among the calls *)
  Definition sets (cs : list call) : list (string * Z) := omap (fun c => match c with CSet id z => Some (id, z) | _ => None end) cs.

  Section Run.
    Variable (pp : PolPP C) (rnd : nat -> Zr) (order : nat -> bool -> gmap nat Zr -> list (nat * Zr)) (id2path : string -> res path).
    (** The state after a call that returns *)
    Definition do_call (ls : LSet) (c : call) : res LSet :=
      match c with
      | CSet id z => LS_Set pp rnd order id2path ls id z
      | CGet id => let! _ := LS_Get (C:=C) id2path ls id in Ret ls
      | CRoot => let! '(ls, _) := Root (C:=C) ls in Ret ls
      | CProveTot => let! _ := ProveTot pp ls in Ret ls
      | CProveLiability co id => let! _ := ProveLiability pp id2path co ls id in Ret ls
      end.
    Fixpoint do_calls (ls : LSet) (cs : list call) : res LSet :=
      match cs with [] => Ret ls | c :: cs => let! ls := do_call ls c in do_calls ls cs end.
    (** A liability set, opened on any database, after some calls.  Randomness and orders of map iteration are arbitrary. *)
    Definition set_run (cs : list call) (ls : LSet) : Prop :=
      (forall k b m, order k b m ≡ₚ map_to_list m) /\ exists db0, do_calls (NewLiabilitySet db0) cs = Ret ls.

    Lemma do_calls_app ls cs cs' : do_calls ls (cs ++ cs') = let! ls := do_calls ls cs in do_calls ls cs'.
    Proof. revert ls. induction cs as [|c cs IH]; intros ls; [done|]. cbn [app do_calls]. destruct (do_call ls c); cbn [rbind]; [apply IH|done|done]. Qed.
    Lemma sets_app cs cs' : sets (cs ++ cs') = sets cs ++ sets cs'.
    Proof. apply omap_app. Qed.
    Lemma Root_tree ls ls' o : Root (C:=C) ls = Ret (ls', o) -> ls_tree ls' = ls_tree ls.
    Proof.
      unfold Root. destruct (vt_tree (ls_tree ls)) as [u|]; [|by intros [= <- _]]. destruct (vdata u) as [[z|key]|]; [done| |done].
      unfold memo_Get. destruct (_ && _).
      - intros H. apply rbind_inv in H as (v & _ & H). by injection H as <- _.
      - destruct (String.length key =? 0)%nat; intros H; apply rbind_inv in H as (v & _ & H); by injection H as <- _.
    Qed.
  End Run.

  (** The parameters used by the tree: fanout F, point-proof parameters of size F + 2 with trapdoor α *)
  Definition tree_params (F : nat) (α : Zr) (pp : PolPP C) : Prop := po_Fanout pp = F /\ po_PPPP pp = NewPublicParams (F + 2) α.
  Lemma params_ok_tree F α n k pp : params_ok F α n k pp -> tree_params F α pp.
  Proof. intros (_ & _ & H1 & H2 & _). done. Qed.

  Lemma ls_fanout_eq F α pp : tree_params F α pp -> (Z.of_nat F + 2 < 65536)%Z -> ls_fanout pp = F.
  Proof. intros [Hf _] H. unfold ls_fanout. rewrite Hf, uint16_small by lia. lia. Qed.
  Lemma do_calls_tree F α pp rnd order id2path cs : tree_params F α pp -> (Z.of_nat F + 2 < 65536)%Z -> forall ls ls',
    do_calls pp rnd order id2path ls cs = Ret ls' ->
    VPuts (C:=C) F α rnd order id2path (ls_tree ls) (sets cs) = Ret (ls_tree ls') /\ Forall (fun e => 0 <= snd e)%Z (sets cs).
  Proof.
    intros Hp HF. induction cs as [|c cs IH]; intros ls ls' H.
    - cbn in H. injection H as <-. split; [done|constructor].
    - cbn [do_calls] in H. apply rbind_inv in H as (ls1 & H1 & H). destruct (IH _ _ H) as [IH1 IH2]. destruct c as [id z|id| | |co id]; cbn [do_call] in H1.
      + unfold LS_Set in H1. destruct (Z.ltb_spec z 0); [done|]. apply rbind_inv in H1 as (t & H1 & E). injection E as <-. cbn [ls_tree] in *.
        rewrite (ls_fanout_eq F α pp Hp HF), (proj2 Hp) in H1. change (sets (CSet id z :: cs)) with ((id, z) :: sets cs). cbn [VPuts]. rewrite H1. cbn [rbind].
        split; [done|]. constructor; done.
      + apply rbind_inv in H1 as (g & _ & E). injection E as <-. done.
      + apply rbind_inv in H1 as ([ls2 o] & H1 & E). injection E as <-. apply Root_tree in H1. rewrite H1 in IH1. done.
      + apply rbind_inv in H1 as (g & _ & E). injection E as <-. done.
      + apply rbind_inv in H1 as (g & _ & E). injection E as <-. done.
  Qed.
  Lemma set_run_verkle F α pp rnd order id2path cs ls : tree_params F α pp -> (Z.of_nat F + 2 < 65536)%Z -> set_run pp rnd order id2path cs ls ->
    verkle_run (C:=C) F α rnd order id2path (sets cs) (ls_tree ls) /\ Forall (fun e => 0 <= snd e)%Z (sets cs).
  Proof. intros Hp HF [Ho [db0 H]]. apply (do_calls_tree F α) in H as [H1 H2]; [|done..]. split; [|done]. split; [done|]. by exists db0. Qed.

  (** The vectors opened by ProveTot and ProveLiability *)
  Lemma Vertex_Values_spec F (w : Vertex C) : Vertex_Values w (F + 1) = ((fun j => default 0 (v_values w !! j)) <$> seq 0 F) ++ [v_sum w].
  Proof.
    unfold Vertex_Values. rewrite seq_app, fmap_app. f_equal.
    - apply list_fmap_ext. intros i j Hj. apply lookup_seq in Hj as [-> Hj]. cbn. destruct (Nat.eqb_spec i (F + 1 - 1)); [lia|done].
    - cbn [seq fmap list_fmap]. rewrite (proj2 (Nat.eqb_eq _ _)) by lia. done.
  Qed.
  Lemma values_vec_split F (w : Vertex C) : values_vec F w = Vertex_Values w (F + 1) ++ [v_bf w].
  Proof. rewrite Vertex_Values_spec. unfold values_vec. rewrite <- app_assoc. done. Qed.
  Lemma vertex_vec_eq F α pp (w : Vertex C) : tree_params F α pp -> vertex_vec pp w = values_vec F w.
  Proof.
    intros [_ Hp]. unfold vertex_vec. rewrite Hp. cbn [pp_N NewPublicParams]. replace (F + 2 - 1)%nat with (F + 1)%nat by lia. symmetry. apply values_vec_split.
  Qed.
  Lemma values_vec_sum F (w : Vertex C) : values_vec F w !! F = Some (v_sum w).
  Proof. unfold values_vec. rewrite lookup_app_r; rewrite fmap_length, seq_length; [|lia]. rewrite Nat.sub_diag. done. Qed.
  Lemma values_vec_value F (w : Vertex C) i : (i < F)%nat -> values_vec F w !! i = Some (default 0 (v_values w !! i)).
  Proof. intros Hi. unfold values_vec. rewrite lookup_app_l by (rewrite fmap_length, seq_length; lia). rewrite list_lookup_fmap, lookup_seq_lt by lia. done. Qed.

  (** The total of the liabilities of a history with paths of length n *)
  Definition total_of (F n : nat) (pathof : string -> path) (cs : list call) : Z := total F n (latest pathof (sets cs)).
  Lemma total_of_nonneg F n pathof cs : Forall (fun e => 0 <= snd e)%Z (sets cs) -> (0 <= total_of F n pathof cs)%Z.
  Proof. intros H. apply total_nonneg. intros p z Hz. apply latest_elem in Hz as (id & Hin & _). rewrite Forall_forall in H. apply (H _ Hin). Qed.

  (** The root vertex *)
  Lemma root_vertex F α pp rnd order id2path pathof n cs ls : tree_params F α pp -> fixed_paths F id2path pathof n (sets cs) -> (1 <= n)%nat ->
    set_run pp rnd order id2path cs ls -> sets cs <> [] ->
    exists root (w : Vertex C), vt_tree (ls_tree ls) = Some root /\ vdata root = Some (DKey "") /\ stored (vs_db (vt_state (ls_tree ls))) "" w /\
      v_sum w = zr (total_of F n pathof cs) /\
      (forall i, default 0 (v_values w !! i) = zr (total F (n - 1) (fun p => latest pathof (sets cs) (i :: p)))) /\
      ((2 <= n)%nat -> Commit (NewPublicParams (F + 2) α) (values_vec F w) = Ret (v_V w) /\ exists W, v_W w = Some W).
  Proof.
    intros Hp [HF Hg] Hn Hr Hne. destruct (set_run_verkle F α _ _ _ _ _ _ Hp HF Hr) as [[Ho [db0 Ht]] _].
    assert (Hb : below pathof (sets cs) []).
    { destruct (sets cs) as [|[id z] h]; [done|]. exists id, z. split; [left|apply prefix_nil]. }
    destruct (verkle_at F α rnd order id2path pathof HF Ho n _ db0 _ [] Hg Ht Hb ltac:(cbn; lia)) as (v & u & Hv & Hu & Hinv & w & Hw & (W1 & W2 & W3) & Hc).
    cbn in Hu. injection Hu as <-. change (path_key []) with "" in *. cbn [length] in *. rewrite Nat.sub_0_r in *. exists v, w.
    split; [done|]. split; [destruct n; [lia|]; cbn [VInv] in Hinv; apply Hinv|]. split; [done|].
    split; [rewrite W1; unfold total_of; replace (S (n - 1)) with n by lia; done|]. split.
    - intros i. rewrite W2. destruct (has_child v i) eqn:E; [done|]. cbn [default]. rewrite total_empty; [done|].
      intros p Hl. apply latest_None. intros id z Hin Heq. assert (has_child v i = true); [|congruence]. apply Hc. exists id, z. split; [done|]. rewrite Heq. by exists p.
    - intros H2. destruct (n - 1)%nat as [|k] eqn:En; [lia|]. destruct W3 as (_ & W3 & W & W4 & _). eauto.
  Qed.
End Calls.
