(** struct_MX: expressions kept per first-level index (C23, C35). *)
From Verif Require Import PyBase IndexModel DMModel StructModel StructSpec PowerModel PowerSpec
  IndexProofs StructProofs LayoutProofs LayoutThms LayoutExamples DMProofs PowerProofs PowerThms SliceProofs PowerThms2 PowerThms3 PowerThms4 PowerThms5
  EntryModel EntrySpec EntryProofs StructsModel StructsSpec StructsThms1 StructsThms2 StructsThms3 StructsThms4 StructsThms5.
Open Scope nat_scope.

Section P.
Context {T : Type} (zero : T).
Notation rval := (rval T).
Notation pel := (pel T).
Notation pay := (pay T).
Notation env := (env T).
Notation pstate := (pstate T).
Notation sobj := (sobj T).

(** ** Positions of a first-level index *)
Lemma top_map s c e idx m l1 l2 : Wf s -> casadi_structure s = Ok c -> In e (s_entries s) -> InDims idx (e_dims e) ->
  leaves s = l1 ++ expand s (top (e_name e) idx) ++ l2 -> cmap_get (top (e_name e) idx) (cs_map c) = Some m ->
  dm_nz m = seq (tot s l1) (tot s (expand s (top (e_name e) idx))) /\ sp_nnz (dm_sp m) = tot s (expand s (top (e_name e) idx)).
Proof.
  intros Hw Hc He Hd Hs Hm. rewrite (expand_top s e idx Hw He) in *. set (t := top (e_name e) idx) in *. unfold ch in *.
  destruct (e_struct e) as [s'|] eqn:Es.
  - assert (Hb : Block s t s') by (exact (Block_here s e idx s' He Es Hd)). pose proof (tot_block s t s' Hw Hb) as Ht.
    destruct (map_keys s c t m Hw Hc Hm) as [(e' & Hl)|(s'' & Hb' & Hne)].
    + exfalso. destruct (Leaf_At _ _ _ Hl) as [Ha E']. pose proof (At_fun s t e' e Hw Ha (At_here s e idx He Hd)) as ->. congruence.
    + destruct (Block_At _ _ _ Hb') as (e' & Ha & E'). pose proof (At_fun s t e' e Hw Ha (At_here s e idx He Hd)) as ->.
      rewrite Es in E'. injection E' as <-. rewrite (map_block s c t s' l1 l2 Hw Hc Hb' Hne Hs) in Hm. injection Hm as <-.
      cbn [dm_nz dm_sp dm_col]. rewrite Ht, nnz_dense_col, seq_length. split; reflexivity.
  - assert (Hl : Leaf s t e) by (exact (Leaf_prim s e idx He Es Hd)).
    assert (Et : map (app t) [[]] = [t]) by (simpl; now rewrite app_nil_r). rewrite Et in *.
    rewrite (map_leaf s c l1 t l2 Hw Hc Hs) in Hm. injection Hm as <-. cbn [dm_nz dm_sp]. assert (Et2 : tot s [t] = sp_nnz (leaf_sp s t)) by (unfold tot; simpl; lia). rewrite Et2. split; reflexivity.
Qed.

(** ** Injections *)
Fixpoint inj_seq (en : env) (l : list (cidx * option pay)) (st : pstate) : pstate * bool :=
  match l with
  | [] => (st, true)
  | (ci, Some q) :: l' =>
      match inject en q ci None st with
      | (st', Ok _) => inj_seq en l' st'
      | (st', Err _) => (st', false)
      end
  | (_, None) :: _ => (st, false)
  end.
Lemma inj_seq_app en l l' : forall st,
  inj_seq en (l ++ l') st = match inj_seq en l st with (st1, true) => inj_seq en l' st1 | x => x end.
Proof.
  induction l as [|[ci [q|]] l IH]; intros st; try reflexivity. cbn [app inj_seq].
  destruct (inject en q ci None st) as [st1 [r|x]]; [apply IH|reflexivity].
Qed.

Lemma flat_inject (en : env) ei sub n : forall ds idx p st st' r,
  travD zero en ei sub ds MInject [] (top n idx) p st = (st', Ok r) -> inj_seq en (flatW n ds idx p) st = (st', true).
Proof.
  induction ds as [|d ds IH]; intros idx p st st' r H.
  - cbn [travD] in H. cbn [flatW inj_seq]. unfold mwrap in H. cbn [dispatch] in H.
    destruct (inject en p (top n idx) None st) as [st1 [r1|x]]; [|discriminate]. now injection H as <- _.
  - cbn [travD] in H. unfold mwrap in H at 1.
    destruct (Z.ltb_spec d 0) as [Hneg|Hpos].
    { unfold slice_range, slice_indices in H. simpl in H. destruct (Z.ltb_spec d 0); [|lia]. discriminate. }
    rewrite slice_range_all in H by exact Hpos. unfold mbind at 1, mlift at 1 in H. unfold pyrange in H. rewrite map_map in H.
    match type of H with context [mmapM ?g _] => set (step := g) in H end.
    assert (G : forall l st st' rs, mmapM step (map (fun x => KI (Z.of_nat x)) l) st = (st', Ok rs) ->
      inj_seq en (flat_map (fun i => match item p i with Some q => flatW n ds (idx ++ [Z.of_nat i]) q
                                     | None => [(top n (idx ++ [Z.of_nat i]), None)] end) l) st = (st', true)).
    { clear H st st' r. induction l as [|i l IHl]; intros st st' rs H.
      - simpl in H. now injection H as <- _.
      - cbn [map mmapM] in H. unfold mbind at 1 in H. unfold step at 1 in H. rewrite unpack_item in H. cbn [flat_map].
        destruct (item p i) as [q|]; [|discriminate]. unfold mbind at 1, mlift at 1 in H.
        assert (Et : top n idx ++ [KI (canonical (Z.of_nat i) d)] = top n (idx ++ [Z.of_nat i])).
        { unfold top. rewrite map_app. simpl. unfold canonical. destruct (Z.ltb_spec (Z.of_nat i) 0); [lia|reflexivity]. }
        rewrite Et in H.
        destruct (travD zero en ei sub ds MInject [] (top n (idx ++ [Z.of_nat i])) q st) as [st1 [r1|x]] eqn:E1; [|discriminate].
        rewrite inj_seq_app, (IH _ _ _ _ _ E1). unfold mbind in H.
        destruct (mmapM step (map (fun x => KI (Z.of_nat x)) l) st1) as [st2 [rs2|x]] eqn:E2; [|discriminate].
        injection H as <- _. eapply IHl; eauto. }
    cbn [flatW]. unfold mbind in H. destruct (mmapM step _ st) as [st1 [rs|x]] eqn:E; [|discriminate]. simpl in H. injection H as <- _.
    eapply G. exact E.
Qed.

Lemma inject_ok (en : env) q ci st st' r : inject en q ci None st = (st', Ok r) ->
  exists k mi M, cmap_get ci (en_mapping en) = Some k /\ cmap_get ci (en_map en) = Some mi /\ q = PayMat M /\ dm_sp mi = dm_sp M /\
    st' = PState (ps_master st) (ps_mirror st) (set_nth k (Some M) (ps_storage st)).
Proof.
  unfold inject. intros H. destruct (cmap_get ci (en_mapping en)) as [k|]; [|discriminate].
  destruct (cmap_get ci (en_map en)) as [mi|]; [|discriminate]. destruct q as [|x|M|l|l|q]; try discriminate.
  destruct (spy_eqb (dm_sp mi) (dm_sp M)) eqn:E; [|discriminate]. injection H as <- _. exists k, mi, M. repeat split; auto. now apply spy_eqb_eq.
Qed.

Definition venv (c : cstruct) : env := so_env (veccat_init (T := T) c).
Lemma combine_seq_In {A} (l : list A) : forall a x k, In (x, k) (List.combine l (seq a (length l))) <-> exists i, k = a + i /\ nth_error l i = Some x.
Proof.
  induction l as [|y l IH]; intros a x k; simpl.
  - split; [tauto|]. intros (i & _ & H). destruct i; discriminate.
  - rewrite IH. split.
    + intros [[= <- <-]|(i & -> & H)]; [exists 0; split; [lia|reflexivity]|exists (S i); split; [lia|exact H]].
    + intros ([|i] & -> & H); [left; simpl in H; injection H as ->; f_equal; lia|right; exists i; split; [lia|exact H]].
Qed.
Lemma combine_seq_fst {A} (l : list A) a : map fst (List.combine l (seq a (length l))) = l.
Proof. revert a. induction l as [|y l IH]; intros a; [reflexivity|]. simpl. now rewrite IH. Qed.
Lemma mapping_get s c t k : Wf s -> cs_struct c = s -> cmap_get t (en_mapping (venv c)) = Some k <-> nth_error (tops s) k = Some t.
Proof.
  intros Hw Es. unfold venv, veccat_init, veccat_mapping. cbn [so_env en_mapping]. rewrite Es. fold (tops s).
  assert (Hnd : NoDup (map fst (List.combine (tops s) (seq 0 (length (tops s)))))) by (rewrite combine_seq_fst; now apply NoDup_tops).
  rewrite cmap_update by exact Hnd. cbn [cmap_get].
  destruct (cmap_get t (List.combine (tops s) (seq 0 (length (tops s))))) as [k'|] eqn:E.
  - apply cmap_get_In in E; [|exact Hnd]. apply combine_seq_In in E as (i & -> & Hi). simpl. split.
    + intros [= <-]. exact Hi.
    + intros Hk. f_equal. apply (NoDup_nth_error (tops s)); [now apply NoDup_tops|eapply nth_error_Some_lt_; eauto|congruence].
  - split; [discriminate|]. intros Hk. exfalso. apply cmap_get_None in E. apply E. rewrite combine_seq_fst. eapply nth_error_In; eauto.
Qed.

Lemma inj_hist s c : Wf s -> cs_struct c = s -> forall l st st', length (ps_storage st) = length (tops s) ->
  inj_seq (venv c) l st = (st', true) ->
  length (ps_storage st') = length (tops s) /\
  forall k t, nth_error (tops s) k = Some t ->
    (~ In t (map fst l) -> nth_error (ps_storage st') k = nth_error (ps_storage st) k) /\
    (forall l1 q l2, l = l1 ++ (t, q) :: l2 -> ~ In t (map fst l2) ->
       exists M mi, q = Some (PayMat M) /\ cmap_get t (cs_map c) = Some mi /\ dm_sp mi = dm_sp M /\ nth_error (ps_storage st') k = Some (Some M)).
Proof.
  intros Hw Es. induction l as [|[ci q] l IH]; intros st st' Hlen H.
  - simpl in H. injection H as <-. split; [exact Hlen|]. intros k t Hk. split; [auto|]. intros [|] q l2 E; discriminate.
  - cbn [inj_seq] in H. destruct q as [q|]; [|discriminate].
    destruct (inject (venv c) q ci None st) as [st1 [r|]] eqn:Ei; [|discriminate].
    destruct (inject_ok _ _ _ _ _ _ Ei) as (k1 & mi & M & Hk1 & Hmi & -> & Hsp & Est1). apply (mapping_get s c ci k1 Hw Es) in Hk1.
    assert (Hlen1 : length (ps_storage st1) = length (tops s)) by (subst st1; simpl; now rewrite set_nth_length).
    destruct (IH st1 st' Hlen1 H) as [IH1 IH2]. split; [exact IH1|]. intros k t Hk. destruct (IH2 k t Hk) as [A B]. split.
    + intros Hn. simpl in Hn. rewrite A by tauto. subst st1. simpl. apply nth_error_set_nth_other. intros ->. apply Hn. left. congruence.
    + intros [|y l1] q l2 E Hn; simpl in E.
      * injection E as E1 <- <-. subst ci. exists M, mi. split; [reflexivity|]. split; [exact Hmi|]. split; [exact Hsp|]. rewrite A by exact Hn.
        assert (k = k1). { apply (NoDup_nth_error (tops s)); [now apply NoDup_tops|eapply nth_error_Some_lt_; eauto|congruence]. } subst k1.
        subst st1. simpl. apply nth_error_set_nth_same. rewrite Hlen. eapply nth_error_Some_lt_; eauto.
      * injection E as _ E. eapply B; eauto.
Qed.

(** ** Histories of assignments [s[n, idx...] = v] *)
Definition hist := list (string * list Z * pay).
Definition hist_pi (h : hist) : list (list pel * pay) := map (fun x => (PStr (fst (fst x)) :: map (fun i => PInt i) (snd (fst x)), snd x)) h.
Definition covers (x : string * list Z * pay) (n : string) (jdx : list Z) : Prop := fst (fst x) = n /\ exists rest, jdx = snd (fst x) ++ rest.
(** [q] is the last value assigned to the repeat [jdx] of [n]. *)
Definition LastAssigned (h : hist) (n : string) (jdx : list Z) (q : pay) : Prop :=
  exists h1 idx rest v h2, h = h1 ++ (n, idx, v) :: h2 /\ jdx = idx ++ rest /\ nest_item v rest = Some q /\
    forall x, In x h2 -> ~ covers x n jdx.
(** Each index gives integers in range for the leading repeat dimensions of an entry. *)
Definition HistOk (s : structure) (h : hist) : Prop :=
  forall x, In x h -> PayOk (snd x) /\ exists e ds1 ds2, In e (s_entries s) /\ e_name e = fst (fst x) /\ e_dims e = ds1 ++ ds2 /\ InDims (snd (fst x)) ds1.

Definition flat1 (s : structure) (x : string * list Z * pay) : list (cidx * option pay) :=
  match dict_get (fst (fst x)) (s_dict s) with
  | Some e => flatW (fst (fst x)) (skipn (length (snd (fst x))) (e_dims e)) (snd (fst x)) (snd x)
  | None => []
  end.

Lemma veccat_set_flat s c st x (o' : sobj) r : Wf s -> cs_struct c = s ->
  (exists e ds1 ds2, In e (s_entries s) /\ e_name e = fst (fst x) /\ e_dims e = ds1 ++ ds2 /\ InDims (snd (fst x)) ds1) ->
  veccat_set zero (SObj c (venv c) st) (PStr (fst (fst x)) :: map (fun i => PInt i) (snd (fst x))) (snd x) = (o', Ok r) ->
  so_c o' = c /\ so_env o' = venv c /\ inj_seq (venv c) (flat1 s x) st = (so_st o', true).
Proof.
  intros Hw Es (e & ds1 & ds2 & He & En & Hd & Hi) H. destruct x as [[n idx] v]. cbn [fst snd] in *. subst n.
  unfold veccat_set in H. cbn [so_c so_env so_st] in H. rewrite Es in H.
  rewrite travS_name in H by (auto using Wf_NoDup).
  rewrite Hd, mwrap_travD in H. rewrite <- (app_nil_r (map (fun i => PInt i) idx)) in H.
  rewrite travD_prefix in H by (exact (Forall2_len _ _ _ Hi)). rewrite mwrap_travD, (from_ends_in _ _ Hi) in H. cbn [app] in H.
  change (KS (e_name e) :: map KI idx) with (top (e_name e) idx) in H.
  destruct (travD zero (venv c) (info zero e) (subT zero e) ds2 MInject [] (top (e_name e) idx) v st) as [st1 r1] eqn:E.
  injection H as <- ->. split; [reflexivity|]. split; [reflexivity|]. cbn [so_st].
  unfold flat1. cbn [fst snd]. rewrite (s_dict_get s e (Wf_NoDup _ Hw) He), Hd.
  rewrite (Forall2_len _ _ _ Hi), skipn_app, skipn_all, Nat.sub_diag. simpl skipn. cbn [app]. eapply flat_inject. exact E.
Qed.
Lemma veccat_sets_flat s c : Wf s -> cs_struct c = s -> forall h st (o' : sobj), HistOk s h ->
  veccat_sets zero (SObj c (venv c) st) (hist_pi h) = Ok o' ->
  so_c o' = c /\ so_env o' = venv c /\ inj_seq (venv c) (flat_map (flat1 s) h) st = (so_st o', true).
Proof.
  intros Hw Es. induction h as [|x h IH]; intros st o' Hh H.
  - simpl in H. injection H as <-. auto.
  - cbn [hist_pi map veccat_sets] in H. destruct (veccat_set zero _ _ _) as [o1 [r|]] eqn:E1; [|discriminate].
    destruct (veccat_set_flat s c st x o1 r Hw Es) as (A1 & A2 & A3); [apply (Hh x); now left|exact E1|].
    destruct o1 as [c1 en1 st1]. simpl in A1, A2, A3. subst c1 en1.
    destruct (IH st1 o' (fun y h0 => Hh y (or_intror h0)) H) as (B1 & B2 & B3). repeat split; auto.
    cbn [flat_map]. rewrite inj_seq_app, A3. exact B3.
Qed.

Lemma in_last (t : cidx) : forall l : list (cidx * option pay), In t (map fst l) ->
  exists l1 q l2, l = l1 ++ (t, q) :: l2 /\ ~ In t (map fst l2).
Proof.
  induction l as [|[u q] l IH]; intros H; [destruct H|]. destruct (in_dec cidx_eq_dec t (map fst l)) as [Hi|Hn].
  - destruct (IH Hi) as (l1 & q' & l2 & -> & H2). exists ((u, q) :: l1), q', l2. split; [reflexivity|exact H2].
  - simpl in H. destruct H as [->|H]; [|contradiction]. exists [], q, l. split; [reflexivity|exact Hn].
Qed.
Lemma inj_seq_some en (l : list (cidx * option pay)) : forall st st', inj_seq en l st = (st', true) -> forall x, In x l -> exists q, snd x = Some q.
Proof.
  induction l as [|[ci [q|]] l IH]; intros st st' H x Hx; [destruct Hx| |discriminate]. cbn [inj_seq] in H.
  destruct (inject en q ci None st) as [st1 [r|]]; [|discriminate]. destruct Hx as [<-|Hx]; [eexists; reflexivity|eauto].
Qed.
Lemma flatW_total n : forall ds idx (p : pay) jdx, (forall x, In x (flatW n ds idx p) -> exists q, snd x = Some q) -> InDims jdx ds ->
  exists q, nest_item p jdx = Some q.
Proof.
  induction ds as [|d ds IH]; intros idx p jdx Ha Hj; inversion Hj as [|j d' jdx' ds' Hjd Hj']; subst; [eexists; reflexivity|].
  cbn [flatW] in Ha. simpl. assert (Hin : In (Z.to_nat j) (seq 0 (Z.to_nat d))) by (apply in_seq; lia).
  destruct (item p (Z.to_nat j)) as [q|] eqn:Eq.
  - apply (IH (idx ++ [Z.of_nat (Z.to_nat j)]) q); [|exact Hj']. intros x Hx. apply Ha. apply in_flat_map. exists (Z.to_nat j). split; [exact Hin|]. now rewrite Eq.
  - exfalso. destruct (Ha (top n (idx ++ [Z.of_nat (Z.to_nat j)]), None)) as [q Hq]; [|discriminate].
    apply in_flat_map. exists (Z.to_nat j). split; [exact Hin|]. rewrite Eq. now left.
Qed.

(** What [inj_seq] leaves in the storage, as a vector. *)
Lemma somes_nth {A} (l : list (option A)) : (forall k, k < length l -> exists a, nth_error l k = Some (Some a)) -> exists ms, somes l = Some ms /\ l = map Some ms.
Proof.
  induction l as [|[a|] l IH]; intros H.
  - exists []. split; reflexivity.
  - destruct IH as (ms & E & E'). { intros k Hk. destruct (H (S k)) as [b Hb]; [simpl; lia|]. exists b. exact Hb. }
    exists (a :: ms). simpl. rewrite E. split; [reflexivity|]. now rewrite E'.
  - destruct (H 0) as [b Hb]; [simpl; lia|discriminate].
Qed.
Lemma somes_none {A} (l : list (option A)) k : nth_error l k = Some None -> somes l = None.
Proof.
  revert k. induction l as [|[a|] l IH]; intros [|k] H; try discriminate; try reflexivity. simpl in H. simpl. now rewrite (IH _ H).
Qed.
Lemma storage_length s (ms : list (dm T)) : forall ts, length ms = length ts ->
  (forall k M t, nth_error ms k = Some M -> nth_error ts k = Some t -> length (dm_nz M) = tot s (expand s t)) ->
  length (flat_map (@dm_nz T) ms) = tot s (flat_map (expand s) ts).
Proof.
  induction ms as [|M ms IH]; intros [|t ts] Hl H; try discriminate; [reflexivity|]. simpl. rewrite app_length, tot_app.
  rewrite (H 0 M t eq_refl eq_refl), (IH ts); [reflexivity|simpl in Hl; lia|]. intros k M' t' A B. exact (H (S k) M' t' A B).
Qed.

Lemma FOP_mid {A} (R : A -> A -> Prop) l1 x l2 : ForallOrdPairs R (l1 ++ x :: l2) -> forall y, In y l2 -> R x y.
Proof.
  induction l1 as [|z l1 IH]; simpl; intros H y Hy; inversion H as [|w l' Hf Hr]; subst; [rewrite Forall_forall in Hf; auto|eauto].
Qed.
Lemma app_eq_len {A} : forall (a b x y : list A), length a = length x -> a ++ b = x ++ y -> a = x /\ b = y.
Proof.
  induction a as [|h a IH]; intros b [|k x] y Hl E; try discriminate; [split; [reflexivity|exact E]|]. simpl in *. injection E as -> E.
  destruct (IH b x y) as [-> ->]; [lia|exact E|]. split; reflexivity.
Qed.

Lemma window_read (d : T) z : forall w y, map (fun k => nth k (y ++ w ++ z) d) (seq (length y) (length w)) = w.
Proof.
  induction w as [|a w IH]; intros y; [reflexivity|]. cbn [length seq map]. f_equal; [now rewrite app_nth2, Nat.sub_diag by lia|].
  pose proof (IH (y ++ [a])) as H. rewrite app_length, <- app_assoc in H. simpl in H. rewrite Nat.add_1_r in H. exact H.
Qed.
Theorem veccat_history s c (h : hist) (o : sobj) : Wf s -> casadi_structure s = Ok c -> HistOk s h ->
  veccat_sets zero (veccat_init c) (hist_pi h) = Ok o ->
  so_c o = c /\
  ((forall e jdx, In e (s_entries s) -> InDims jdx (e_dims e) -> exists x, In x h /\ covers x (e_name e) jdx) ->
   exists cat, veccat_master o = Ok cat /\ length cat = cs_size c /\
   forall e jdx q, In e (s_entries s) -> InDims jdx (e_dims e) -> LastAssigned h (e_name e) jdx q ->
     exists M m, q = PayMat M /\ cmap_get (top (e_name e) jdx) (cs_map c) = Some m /\ dm_sp M = dm_sp m /\ map (fun k => nth k cat zero) (dm_nz m) = dm_nz M) /\
  (forall e jdx, In e (s_entries s) -> InDims jdx (e_dims e) -> (forall x, In x h -> ~ covers x (e_name e) jdx) ->
   veccat_master o = Err EException).
Proof.
  intros Hw Hc Hh H. pose proof (cs_struct_eq _ _ Hw Hc) as Es.
  change (veccat_init c) with (SObj c (venv c) (so_st (veccat_init (T := T) c))) in H.
  destruct (veccat_sets_flat s c Hw Es h _ o Hh H) as (E1 & E2 & E3). set (st0 := so_st (veccat_init (T := T) c)) in *.
  assert (Hl0 : length (ps_storage st0) = length (tops s)).
  { unfold st0, veccat_init, veccat_mapping. cbn [so_st ps_storage]. rewrite Es. fold (tops s). rewrite repeat_length, combine_length, seq_length. lia. }
  destruct (inj_hist s c Hw Es _ _ _ Hl0 E3) as [Hl Hst]. set (fl := flat_map (flat1 s) h) in *.
  (* flat entries come from covering assignments *)
  assert (Hflat : forall x e jdx, In x h -> In e (s_entries s) -> In (top (e_name e) jdx) (map fst (flat1 s x)) -> covers x (e_name e) jdx).
  { intros [[n idx] v] e jdx Hx He Hin. unfold flat1 in Hin. cbn [fst snd] in Hin.
    destruct (dict_get n (s_dict s)) as [e0|] eqn:E0; [|destruct Hin]. apply in_map_iff in Hin as (y & Ey & Hy).
    destruct (flatW_keys _ _ _ _ _ Hy) as [r Hr]. rewrite Ey in Hr. unfold top in Hr. injection Hr as Hn Hr. split; [exact (eq_sym Hn)|].
    exists r. apply (f_equal (map (fun k => match k with KI i => i | _ => 0%Z end))) in Hr. rewrite !map_map, !map_id in Hr. exact Hr. }
  assert (Hcov : forall x e jdx, In x h -> In e (s_entries s) -> InDims jdx (e_dims e) -> covers x (e_name e) jdx ->
     exists rest ds2, jdx = snd (fst x) ++ rest /\ InDims rest ds2 /\ flat1 s x = flatW (e_name e) ds2 (snd (fst x)) (snd x)).
  { intros [[n idx] v] e jdx Hx He Hj [En [rest Er]]. cbn [fst snd] in *. subst n.
    destruct (Hh _ Hx) as (_ & e' & ds1 & ds2 & He' & En' & Ed & Hi). cbn [fst snd] in *.
    assert (e' = e). { pose proof (s_dict_get s e' (Wf_NoDup _ Hw) He') as A. rewrite En', (s_dict_get s e (Wf_NoDup _ Hw) He) in A. congruence. } subst e'.
    exists rest, ds2. split; [exact Er|]. subst jdx. rewrite Ed in Hj. split.
    - apply Forall2_app_inv_l in Hj as (x1 & x2 & A1 & A2 & A3).
      assert (Hlx : length x1 = length ds1) by (rewrite <- (Forall2_len _ _ _ A1), <- (Forall2_len _ _ _ Hi); reflexivity).
      destruct (app_eq_len _ _ _ _ (eq_sym Hlx) A3) as [_ ->]. exact A2.
    - unfold flat1. cbn [fst snd]. rewrite (s_dict_get s e (Wf_NoDup _ Hw) He), Ed.
      rewrite (Forall2_len _ _ _ Hi), skipn_app, skipn_all, Nat.sub_diag. reflexivity. }
  split; [exact E1|]. split.
  - intros Hall.
    assert (Hfull : forall k t, nth_error (tops s) k = Some t -> exists M mi l1 l2, fl = l1 ++ (t, Some (PayMat M)) :: l2 /\ ~ In t (map fst l2) /\
              cmap_get t (cs_map c) = Some mi /\ dm_sp mi = dm_sp M /\ nth_error (ps_storage (so_st o)) k = Some (Some M) /\ length (dm_nz M) = sp_nnz (dm_sp M)).
    { intros k t Hk. pose proof (nth_error_In _ _ Hk) as Ht. apply in_tops in Ht as (e & jdx & He & Hj & ->); [|exact Hw].
      destruct (Hall e jdx He Hj) as (x & Hx & Hcx). destruct (Hcov x e jdx Hx He Hj Hcx) as (rest & ds2 & Ej & Hr & Ef).
      assert (Hin : In (top (e_name e) jdx) (map fst fl)).
      { destruct (flatW_total (e_name e) ds2 (snd (fst x)) (snd x) rest) as [q Hq].
        - intros y Hy. apply (inj_seq_some _ _ _ _ E3). unfold fl. apply in_flat_map. exists x. split; [exact Hx|]. now rewrite Ef.
        - exact Hr.
        - apply in_map_iff. exists (top (e_name e) jdx, Some q). split; [reflexivity|]. unfold fl. apply in_flat_map. exists x. split; [exact Hx|].
          rewrite Ef, Ej. apply flatW_in; assumption. }
      destruct (in_last _ _ Hin) as (l1 & q & l2 & El & Hn). destruct (proj2 (Hst k _ Hk) l1 q l2 El Hn) as (M & mi & -> & B & C & D).
      exists M, mi, l1, l2. repeat split; auto.
      assert (Hi : In (top (e_name e) jdx, Some (PayMat M)) fl) by (rewrite El; apply in_or_app; right; now left).
      unfold fl in Hi. apply in_flat_map in Hi as ([[n' idx'] v'] & Hy & Hi). unfold flat1 in Hi. cbn [fst snd] in Hi.
      destruct (dict_get n' (s_dict s)) as [e0|]; [|destruct Hi].
      destruct (flatW_inv _ _ _ _ _ _ Hi (ex_intro _ _ eq_refl)) as (r & _ & _ & Hnest).
      destruct (nest_item_ok _ _ _ (proj1 (Hh _ Hy)) Hnest) as [Hok _]. cbn [pay_ok] in Hok. apply Hok. }
    destruct (somes_nth (ps_storage (so_st o))) as (ms & Em & Em').
    { intros k Hk. rewrite Hl in Hk. destruct (nth_error (tops s) k) as [t|] eqn:Et; [|apply nth_error_None in Et; lia].
      destruct (Hfull k t Et) as (M & _ & _ & _ & _ & _ & _ & _ & HM & _). eauto. }
    assert (Hlm : length ms = length (tops s)) by (rewrite <- Hl, Em', map_length; reflexivity).
    assert (Hms : forall k M, nth_error ms k = Some M <-> nth_error (ps_storage (so_st o)) k = Some (Some M)).
    { intros k M. rewrite Em', nth_error_map. destruct (nth_error ms k); simpl; split; congruence. }
    assert (Hlen : forall k M t, nth_error ms k = Some M -> nth_error (tops s) k = Some t -> length (dm_nz M) = tot s (expand s t)).
    { intros k M t HM Ht. destruct (Hfull k t Ht) as (M' & mi & _ & _ & _ & _ & Hmi & Hsp & HM' & Hok). apply Hms in HM. rewrite HM' in HM. injection HM as <-.
      rewrite Hok, <- Hsp. pose proof (nth_error_In _ _ Ht) as Hin. apply in_tops in Hin as (e & jdx & He & Hj & ->); [|exact Hw].
      destruct (nth_error_split _ _ Ht) as (ta & tb & Et & _).
      eapply top_map; eauto. rewrite (leaves_tops s Hw), Et, flat_map_app. simpl. reflexivity. }
    exists (flat_map (@dm_nz T) ms). split; [unfold veccat_master; now rewrite Em|]. split.
    { rewrite (storage_length s ms (tops s) Hlm Hlen), <- (leaves_tops s Hw). symmetry. exact (build_size s c Hw Hc). }
    intros e jdx q He Hj Hlast.
    destruct (In_nth_error _ _ (proj2 (in_tops s _ Hw) (ex_intro _ e (ex_intro _ jdx (conj He (conj Hj eq_refl)))))) as [k Hk].
    destruct Hlast as (h1 & idx & rest & v & h2 & Eh & Ej & Hq & Hno).
    assert (Hx : In (e_name e, idx, v) h) by (rewrite Eh; apply in_or_app; right; now left).
    destruct (Hcov _ e jdx Hx He Hj) as (rest' & ds2 & Ej' & Hr & Ef); [split; [reflexivity|now exists rest]|]. cbn [fst snd] in Ej', Ef.
    assert (rest' = rest) by (rewrite Ej in Ej'; now apply app_inv_head in Ej'). subst rest'.
    assert (Hin : In (top (e_name e) jdx, Some q) (flatW (e_name e) ds2 idx v)) by (rewrite Ej; now apply flatW_in).
    apply in_split in Hin as (f1 & f2 & Ef2).
    assert (Elast : fl = (flat_map (flat1 s) h1 ++ f1) ++ (top (e_name e) jdx, Some q) :: (f2 ++ flat_map (flat1 s) h2)).
    { unfold fl. rewrite Eh, flat_map_app. cbn [flat_map]. rewrite Ef, Ef2, <- !app_assoc. reflexivity. }
    assert (Hnot : ~ In (top (e_name e) jdx) (map fst (f2 ++ flat_map (flat1 s) h2))).
    { rewrite map_app, in_app_iff. intros [Hi|Hi].
      - apply in_map_iff in Hi as (y & Ey & Hy). pose proof (flatW_apart (e_name e) ds2 idx v) as Hap. rewrite Ef2 in Hap.
        pose proof (FOP_mid _ _ _ _ Hap y Hy) as Hap2. clear Hap. rename Hap2 into Hap. cbn [fst] in Hap. rewrite Ey in Hap. apply (Hap [] []). reflexivity.
      - apply in_map_iff in Hi as (y & Ey & Hy). apply in_flat_map in Hy as (x & Hx2 & Hy). apply (Hno x Hx2). apply Hflat; [rewrite Eh; apply in_or_app; right; now right|exact He|].
        apply in_map_iff. exists y. split; assumption. }
    destruct (proj2 (Hst k _ Hk) _ _ _ Elast Hnot) as (M & m & Eq & Hm & Hsp & HM). injection Eq as ->.
    exists M, m. split; [reflexivity|]. split; [exact Hm|]. split; [now symmetry|].
    destruct (nth_error_split _ _ Hk) as (ta & tb & Et & Hta).
    apply Hms in HM. destruct (nth_error_split _ _ HM) as (ma & mb & Ema & Hma).
    assert (Hpre : length (flat_map (@dm_nz T) ma) = tot s (flat_map (expand s) ta)).
    { apply storage_length; [lia|]. intros k' M' t' A B. apply (Hlen k').
      - rewrite Ema. rewrite nth_error_app1; [exact A|eapply nth_error_Some_lt_; eauto].
      - rewrite Et. rewrite nth_error_app1; [exact B|eapply nth_error_Some_lt_; eauto]. }
    destruct (top_map s c e jdx m (flat_map (expand s) ta) (flat_map (expand s) tb) Hw Hc He Hj) as [Hnz Hn]; [rewrite (leaves_tops s Hw), Et, flat_map_app; reflexivity|exact Hm|].
    rewrite Hnz, Ema, flat_map_app. cbn [flat_map]. rewrite <- Hpre.
    rewrite <- (Hlen k M _ HM Hk). clear. generalize (flat_map (@dm_nz T) mb) as z. intros z. generalize (flat_map (@dm_nz T) ma) as y. intros y.
    apply window_read.
  - intros e jdx He Hj Hno.
    destruct (In_nth_error _ _ (proj2 (in_tops s _ Hw) (ex_intro _ e (ex_intro _ jdx (conj He (conj Hj eq_refl)))))) as [k Hk].
    unfold veccat_master. rewrite (somes_none _ k); [reflexivity|]. rewrite (proj1 (Hst k _ Hk)).
    + unfold st0, veccat_init, veccat_mapping. cbn [so_st ps_storage]. rewrite Es. fold (tops s). rewrite combine_length, seq_length, Nat.min_id.
      apply nth_error_repeat. eapply nth_error_Some_lt_; eauto.
    + intros Hi. apply in_map_iff in Hi as (y & Ey & Hy). unfold fl in Hy. apply in_flat_map in Hy as (x & Hx & Hy). apply (Hno x Hx). apply Hflat; auto.
      apply in_map_iff. eauto.
Qed.

(** ** struct_MX *)
Definition initial (l : list (item_arg T)) : hist :=
  flat_map (fun ce => match ce_expr ce with Some v => [(ce_name ce, [], pay_of_val v)] | None => [] end) (arg_entries l).

Lemma veccat_sets_app l1 : forall l2 (o : sobj), veccat_sets zero o (l1 ++ l2) = rbind (veccat_sets zero o l1) (fun o1 => veccat_sets zero o1 l2).
Proof.
  induction l1 as [|[pi v] l1 IH]; intros l2 o; [reflexivity|]. cbn [app veccat_sets]. destruct (veccat_set zero o pi v) as [o1 [r|x]]; [apply IH|reflexivity].
Qed.

Lemma veccat_read s c (o : sobj) cat e idx m : Wf s -> casadi_structure s = Ok c -> so_c o = c -> so_env o = venv c -> veccat_master o = Ok cat -> length cat = cs_size c ->
  In e (s_entries s) -> InDims idx (e_dims e) -> e_symm e = false -> cmap_get (top (e_name e) idx) (cs_map c) = Some m ->
  veccat_get zero o (pidx (top (e_name e) idx)) = Ok (RMat (vals zero cat m)).
Proof.
  intros Hw Hc E1 E2 Hm Hlen He Hi Hsy Hg. unfold veccat_get. rewrite Hm, E1, E2. cbn [rbind]. rewrite (cs_struct_eq _ _ Hw Hc). unfold getitem.
  rewrite <- (app_nil_r (pidx (top (e_name e) idx))), (travS_at zero s (top (e_name e) idx) e (At_here s e idx He Hi) Hw).
  destruct (map_ok s c _ m Hw Hc Hg) as (_ & [Hsp _] & _ & Hb & _).
  simpl. unfold mwrap, getter. simpl. fold (top (e_name e) idx). rewrite Hg. simpl. rewrite Hsy. unfold mbind. simpl. unfold correct_vector_indexing.
  rewrite (cvi_ok zero); auto. unfold inb. now rewrite Hlen.
Qed.

Theorem mx_cat (l : list (item_arg T)) (h : hist) (o o' : sobj) :
  items_ok l -> (forall ce v, In ce (arg_entries l) -> ce_expr ce = Some v -> PayOk (pay_of_val v)) ->
  struct_MX zero l None = Ok o -> HistOk (cs_struct (so_c o)) h -> veccat_sets zero o (hist_pi h) = Ok o' ->
  so_c o' = so_c o /\
  exists cat, veccat_master o' = Ok cat /\ length cat = cs_size (so_c o) /\
  forall e idx q, In e (s_entries (cs_struct (so_c o))) -> InDims idx (e_dims e) -> LastAssigned (initial l ++ h) (e_name e) idx q ->
    exists M m, q = PayMat M /\ i_get zero (cs_struct (so_c o)) (pidx (top (e_name e) idx)) = Ok (RIdx m) /\
      dm_sp M = dm_sp m /\ map (fun k => nth k cat zero) (dm_nz m) = dm_nz M /\
      (e_symm e = false -> veccat_get zero o' (pidx (top (e_name e) idx)) = Ok (RMat M)).
Proof.
  intros Hit Hok H Hh H'. unfold struct_MX in H.
  destruct (struct_ l None) as [[el c]|] eqn:Es; [|discriminate]. cbn [rbind] in H.
  destruct (forallb has_expr (el_entries el)) eqn:Ea; [|discriminate]. cbn [negb] in H.
  destruct (proj2 (struct_builds l Hit) el c Es) as (Hw & Hc & Hent & Hkeys & _).
  assert (Hel : el_entries el = arg_entries l).
  { unfold struct_ in Es. destruct (entry_list l None) as [el'|] eqn:Ee; [|discriminate]. cbn [rbind] in Es.
    destruct (entry_list_result l None el' Ee) as (E1 & _). destruct (structure_init _ _) as [s0|]; [|discriminate]. cbn [rbind] in Es.
    destruct (casadi_structure s0); [|discriminate]. cbn [rbind] in Es. congruence. }
  assert (Hpi : expr_sets el = hist_pi (initial l)).
  { unfold expr_sets, initial, hist_pi. rewrite Hel. clear. induction (arg_entries l) as [|ce l' IH]; [reflexivity|]. simpl. rewrite map_app, <- IH. destruct (ce_expr ce); reflexivity. }
  set (s := cs_struct c) in *.
  assert (Hinit : HistOk s (initial l)).
  { intros x Hx. unfold initial in Hx. apply in_flat_map in Hx as (ce & Hce & Hx). destruct (ce_expr ce) as [v|] eqn:Ev; [|destruct Hx].
    destruct Hx as [<-|[]]. split; [exact (Hok ce v Hce Ev)|]. exists (ce_entry ce), [], (e_dims (ce_entry ce)). split; [rewrite Hent; now apply in_map|].
    split; [reflexivity|]. split; [reflexivity|constructor]. }
  assert (Hoc : so_c o = c).
  { rewrite Hpi in H. exact (proj1 (veccat_history s c (initial l) o Hw Hc Hinit H)). }
  assert (Hall : veccat_sets zero (veccat_init c) (hist_pi (initial l ++ h)) = Ok o').
  { unfold hist_pi. rewrite map_app. fold (hist_pi (initial l)) (hist_pi h). rewrite veccat_sets_app, <- Hpi, H. exact H'. }
  assert (Hok2 : HistOk s (initial l ++ h)).
  { intros x Hx. apply in_app_iff in Hx as [Hx|Hx]; [auto|]. rewrite Hoc in Hh. exact (Hh x Hx). }
  destruct (veccat_history s c _ o' Hw Hc Hok2 Hall) as (A & B & _).
  rewrite Hoc. split; [exact A|]. destruct B as (cat & B1 & B2 & B3).
  { intros e jdx He Hj. rewrite Hent in He. apply in_map_iff in He as (ce & <- & Hce).
    pose proof Ea as Ea2. rewrite Hel in Ea2. pose proof (proj1 (forallb_forall _ _) Ea2 ce Hce) as Hex. unfold has_expr in Hex.
    destruct (ce_expr ce) as [v|] eqn:Ev; [|discriminate].
    exists (ce_name ce, [], pay_of_val v). split.
    - apply in_app_iff. left. unfold initial. apply in_flat_map. exists ce. split; [exact Hce|]. rewrite Ev. now left.
    - split; [reflexivity|]. exists jdx. reflexivity. }
  exists cat. split; [exact B1|]. split; [exact B2|]. intros e idx q He Hi Hl. fold s in He |- *.
  destruct (B3 e idx q He Hi Hl) as (M & m & -> & Hm & Hsp & Hv). exists M, m. split; [reflexivity|].
  split; [pose proof (i_get_at zero s c (top (e_name e) idx) e Hw Hc (At_here s e idx He Hi)) as X; rewrite Hm in X; exact X|]. split; [exact Hsp|]. split; [exact Hv|]. intros Hsy.
  assert (Henv : so_env o' = venv c).
  { change (veccat_init c) with (SObj c (venv c) (so_st (veccat_init (T := T) c))) in Hall.
    destruct (veccat_sets_flat s c Hw (cs_struct_eq _ _ Hw Hc) _ _ _ Hok2 Hall) as (_ & E & _). exact E. }
  rewrite (veccat_read s c o' cat e idx m Hw Hc A Henv B1 B2 He Hi Hsy Hm). do 2 f_equal. destruct M as [sp nz]. unfold vals, dm_map. cbn [dm_sp dm_nz] in Hsp, Hv |- *. now rewrite <- Hsp, Hv.
Qed.

(** Assigned entries only: [master] raises while something is missing. *)
Theorem mx_missing s c (h : hist) (o : sobj) : Wf s -> casadi_structure s = Ok c -> HistOk s h -> veccat_sets zero (veccat_init c) (hist_pi h) = Ok o ->
  forall e jdx, In e (s_entries s) -> InDims jdx (e_dims e) -> (forall x, In x h -> ~ covers x (e_name e) jdx) -> veccat_master o = Err EException.
Proof. intros Hw Hc Hh H. exact (proj2 (proj2 (veccat_history s c h o Hw Hc Hh H))). Qed.

(** C35 for struct_MX *)
Theorem mx_expr_reads (l : list (item_arg T)) (o : sobj) :
  items_ok l -> (forall ce v, In ce (arg_entries l) -> ce_expr ce = Some v -> PayOk (pay_of_val v)) ->
  struct_MX zero l None = Ok o ->
  forall ce v path x sp, In ce (arg_entries l) -> ce_expr ce = Some v -> Regular v (e_dims (ce_entry ce)) -> Reach v path x -> MatrixOf x sp ->
    exists M m cat, pay_of_val x = PayMat M /\ i_get zero (cs_struct (so_c o)) (pidx (top (ce_name ce) path)) = Ok (RIdx m) /\
      veccat_master o = Ok cat /\ map (fun k => nth k cat zero) (dm_nz m) = dm_nz M /\
      (e_symm (ce_entry ce) = false -> veccat_get zero o (pidx (top (ce_name ce) path)) = Ok (RMat M)).
Proof.
  intros Hit Hok H ce v path x sp Hce Hv Hreg Hreach Hx.
  destruct (mx_cat l [] o o Hit Hok H) as (_ & cat & Hm & _ & G); [intros y []|reflexivity|].
  pose proof H as H0. unfold struct_MX in H0. destruct (struct_ l None) as [[el c]|] eqn:Es; [|discriminate]. cbn [rbind] in H0.
  destruct (proj2 (struct_builds l Hit) el c Es) as (Hw & Hc & Hent & Hkeys & _).
  destruct (forallb has_expr (el_entries el)) eqn:Ea; [|discriminate]. cbn [negb] in H0.
  assert (Hoc : so_c o = c).
  { clear -H0. revert H0. generalize (expr_sets el) as w. assert (G : so_c (veccat_init (T := T) c) = c) by reflexivity. revert G. generalize (veccat_init (T := T) c) as o1. intros o1 G w. revert o1 G.
    induction w as [|[pi p] w IH]; intros o1 G H; [simpl in H; now injection H as <-|]. cbn [veccat_sets] in H.
    unfold veccat_set in H. destruct (travS zero _ _ _ _ _ _ _) as [st [r|]]; [|discriminate]. eapply IH; [|exact H]. exact G. }
  destruct (G (ce_entry ce) path (pay_of_val x)) as (M & m & EM & A & B & C & D).
  - rewrite Hoc, Hent. now apply in_map.
  - eapply regular_in; eauto.
  - rewrite app_nil_r.
    assert (Hin : In (ce_name ce, [], pay_of_val v) (initial l)).
    { unfold initial. apply in_flat_map. exists ce. split; [exact Hce|]. rewrite Hv. now left. }
    apply in_split in Hin as (h1 & h2 & Eh). exists h1, [], path, (pay_of_val v), h2. split; [exact Eh|]. split; [reflexivity|].
    split; [exact (reach_item v path x Hreach)|]. intros y Hy [Hc1 _].
    (* names are unique *)
    assert (Hnd : NoDup (map (fun y => fst (fst y)) (initial l))).
    { assert (En : map (fun y => fst (fst y)) (initial l) = map ce_name (arg_entries l)).
      { assert (Hel : el_entries el = arg_entries l).
        { unfold struct_ in Es. destruct (entry_list l None) as [el'|] eqn:Ee; [|discriminate]. cbn [rbind] in Es.
          destruct (entry_list_result l None el' Ee) as (E1 & _). destruct (structure_init _ _) as [s0|]; [|discriminate]. cbn [rbind] in Es.
          destruct (casadi_structure s0); [|discriminate]. cbn [rbind] in Es. congruence. }
        rewrite Hel in Ea. clear -Ea. unfold initial. induction (arg_entries l) as [|ce l' IH]; [reflexivity|]. simpl in Ea. apply andb_true_iff in Ea as [E1 E2].
        unfold has_expr in E1. simpl. destruct (ce_expr ce); [|discriminate]. simpl. f_equal. auto. }
      rewrite En. pose proof (Wf_NoDup _ Hw) as Hn. rewrite Hent, map_map in Hn. exact Hn. }
    rewrite Eh, map_app in Hnd. apply NoDup_app_disj in Hnd as [_ Hnd]. inversion Hnd as [|? ? Hni _]. apply Hni. cbn [fst].
    apply in_map_iff. exists y. split; [exact Hc1|exact Hy].
  - exists M, m, cat. repeat split; auto.
Qed.
End P.
