(** Views of stacks of square matrices: squared_repeated (C81). *)
From Verif Require Import PyBase IndexModel DMModel StructModel StructSpec PowerModel PowerSpec
  IndexProofs StructProofs LayoutProofs LayoutThms LayoutExamples DMProofs PowerProofs PowerThms SliceProofs PowerThms2 PowerThms3 PowerThms4 PowerThms5
  EntryModel EntrySpec EntryProofs StructsModel StructsSpec StructsThms1 StructsThms2 StructsThms3 StructsThms4 StructsThms5 StructsThms6 StructsThms7 StructsThms8 StructsThms9.
Open Scope nat_scope.

Section P.
Context {T : Type} (zero : T).
Notation rval := (rval T).
Notation pel := (pel T).
Notation pay := (pay T).
Notation env := (env T).
Notation pstate := (pstate T).
Notation sobj := (sobj T).
Notation view := (view T).

(** ** Access to a primitive entry inside a window of the data *)
Section Leaf.
Variables (s1 s2 : structure) (raw1 P1 raw2 P2 : cidx) (e1 e2 : entry) (mp1 mp2 : imap) (x y : list T) (m : dm nat) (n : nat).
Hypothesis Hw1 : Wf s1.
Hypothesis Hw2 : Wf s2.
Hypothesis Ha1 : Addr s1 raw1 P1 e1.
Hypothesis Ha2 : Addr s2 raw2 P2 e2.
Hypothesis Es1 : e_struct e1 = None.
Hypothesis Es2 : e_struct e2 = None.
Hypothesis Hsym : e_symm e1 = false.
Hypothesis Hi : info zero e1 = info zero e2.
Hypothesis Hm1 : cmap_get P1 mp1 = Some (dm_shift (length x) m).
Hypothesis Hm2 : cmap_get P2 mp2 = Some m.
Hypothesis Hok : DmOk m.
Hypothesis Hn : Forall (fun k => k < n) (dm_nz m).
Let en1 := Env mp1 [] KRep [] : env.
Let en2 := Env mp2 [] KNz [] : env.

Lemma end_leaf e en md rest ci (p : pay) : e_struct e = None ->
  endD zero en (info zero e) (subT zero e) md rest ci p = dispatch zero en md p ci (match rest with [] => None | _ => Some rest end) (Some (info zero e)).
Proof. intros E. unfold endD, subT. rewrite E. destruct rest; reflexivity. Qed.
Lemma extra_rest rest : extra (match rest with [] => None | _ => Some rest end) = rest :> list pel.
Proof. destruct rest; reflexivity. Qed.

Lemma leaf_pei ei q i : no_fun q -> @performExtraIndex T ei false (RIdx m) q = Ok i -> exists m', i = RIdx m' /\ Forall (fun k => k < n) (dm_nz m').
Proof.
  intros Hf H. apply pei_ok in H as (m' & -> & _ & Hin); [|exact Hok|].
  - exists m'. split; [reflexivity|]. rewrite Forall_forall in *. auto.
  - eapply Forall_impl; [|exact Hf]. intros a. destruct a; auto.
Qed.

Lemma leaf_get w q : length w = n -> no_fun q ->
  getitem zero s1 en1 (pidx raw1 ++ q) (PState (x ++ w ++ y) (x ++ w ++ y) []) = getitem zero s2 en2 (pidx raw2 ++ q) (PState w [] []).
Proof.
  intros Hl Hf. unfold getitem. rewrite (travS_addr zero s1 raw1 P1 e1 Ha1 Hw1), (travS_addr zero s2 raw2 P2 e2 Ha2 Hw2). cbn [app].
  rewrite !end_leaf by assumption. unfold mwrap. cbn [dispatch]. unfold getter, mbind, mlift, get_master. cbn [en_map en_pmap en1 en2]. rewrite Hm1, Hm2, !extra_rest.
  replace (match q with [] => cmap_get P1 [] | _ => None end) with (@None (dm T)) by (destruct q; reflexivity).
  replace (match q with [] => cmap_get P2 [] | _ => None end) with (@None (dm T)) by (destruct q; reflexivity).
  rewrite pei_shift by exact Hf. rewrite <- Hi.
  destruct (performExtraIndex (Some (info zero e1)) false (RIdx m) q) as [i|e] eqn:E; [|reflexivity]. 
  destruct (leaf_pei _ q i Hf E) as (m' & -> & Hm'). cbn [rmap shift_r ps_master is_symm]. 
  assert (Hsy : ei_symm (info zero e1) = false) by exact Hsym. rewrite Hsy.
  unfold correct_vector_indexing. rewrite get_window by (unfold inb; rewrite Hl; exact Hm').
  change (dm_nr (dm_shift (length x) m')) with (dm_nr m'). change (dm_nc (dm_shift (length x) m')) with (dm_nc m').
  destruct (vec_get w m') as [r|e]; cbn [rbind]; [|reflexivity]. destruct (rmap RMat (dm_reshape r (dm_nr m') (dm_nc m'))); reflexivity.
Qed.
Lemma leaf_set w q p : length w = n -> no_fun q ->
  exists w' r, length w' = n /\ setitem zero s2 en2 (pidx raw2 ++ q) p (PState w [] []) = (PState w' [] [], r) /\
    setitem zero s1 en1 (pidx raw1 ++ q) p (PState (x ++ w ++ y) (x ++ w ++ y) []) = (PState (x ++ w' ++ y) (x ++ w' ++ y) [], r).
Proof.
  intros Hl Hf. unfold setitem. rewrite (travS_addr zero s1 raw1 P1 e1 Ha1 Hw1), (travS_addr zero s2 raw2 P2 e2 Ha2 Hw2). cbn [app].
  rewrite !end_leaf by assumption. unfold mwrap. cbn [dispatch]. unfold setter, mbind, mlift. cbn [en_map en_kind en1 en2].
  destruct (to_mtype p) as [M|e]; [|exists w; eexists; split; [exact Hl|]; split; reflexivity].
  rewrite Hm1, Hm2, !extra_rest, pei_shift by exact Hf. rewrite <- Hi.
  destruct (performExtraIndex (Some (info zero e1)) false (RIdx m) q) as [i|e] eqn:E; [|exists w; eexists; split; [exact Hl|]; split; reflexivity].
  destruct (leaf_pei _ q i Hf E) as (m' & -> & Hm'). cbn [rmap shift_r is_symm].
  assert (Hsy : ei_symm (info zero e1) = false) by exact Hsym. rewrite Hsy.
  unfold master_set. cbn [ps_master ps_mirror ps_storage]. unfold vec_set_nz. rewrite assign_window by (unfold inb; rewrite Hl; exact Hm').
  destruct (vec_assign true zero w m' M) as [w'|e] eqn:Ew; cbn [rmap]; [|exists w; eexists; split; [exact Hl|]; split; reflexivity].
  pose proof (assign_length zero true _ _ _ _ Ew) as Hl'. exists w'. eexists. split; [congruence|]. split; [reflexivity|].
  rewrite (mirror_copy zero); [reflexivity|]. rewrite !app_length, Hl'. reflexivity.
Qed.
End Leaf.

(** ** What [squared_repeated] builds *)
Definition entry_q (s : structure) (n N : nat) : entry := mkEntry "t" [Z.of_nat N] None (sp_dense n n) false None (Some [SDS s; SDS s]).
Lemma entry_q_init s c N : casadi_structure s = Ok c ->
  entry_init "t" [("shapestruct"%string, VTuple [VStructure s; VStructure s]); ("repeat"%string, VInt (Z.of_nat N))] =
    Ok (CEntry (T := T) (entry_q s (cs_size c) N) None None).
Proof.
  intros Hc. unfold entry_init. cbn. rewrite Hc. cbn. destruct (Z.ltb_spec (Z.of_nat (cs_size c)) 0); [lia|]. cbn. rewrite !Nat2Z.id. reflexivity.
Qed.
Lemma q_leaves s n N : leaves (mkStruct [entry_q s n N] [OName "t"]) = map at_col (seq 0 N).
Proof.
  rewrite leaves_eq. unfold order_indices. cbn [map flat_map pydict fold_left dict_set fst snd dict_get entry_q e_name]. cbn [String.eqb Ascii.eqb Bool.eqb].
  rewrite app_nil_r. cbn [fst snd e_dims]. rewrite entry_indices_eq. unfold ch. cbn [e_struct].
  cbn [entry_q e_struct e_dims]. rewrite listindices_cons. cbn [listindices map]. unfold pyrange. rewrite Nat2Z.id.
  generalize (seq 0 N). induction l as [|j l IH]; [reflexivity|]. cbn [map flat_map app]. rewrite IH. reflexivity.
Qed.
Record QView (s : structure) (c : cstruct) (N : nat) (ct : cstruct) (vw : view) (v : list T) : Prop := {
  qv_eq : vw = View (SObj ct (Env (cs_map ct) [] KRep []) (PState v v [])) [PStr "t"];
  qv_struct : cs_struct ct = mkStruct [entry_q s (cs_size c) N] [OName "t"];
  qv_wf : Wf (cs_struct ct);
  qv_built : casadi_structure (cs_struct ct) = Ok ct;
  qv_len : length v = N * (cs_size c * cs_size c)
}.
Lemma q_leaf s c N ct j : cs_struct ct = mkStruct [entry_q s (cs_size c) N] [OName "t"] -> j < N -> Leaf (cs_struct ct) (at_col j) (entry_q s (cs_size c) N).
Proof.
  intros E Hj. rewrite E. unfold at_col. pose proof (Leaf_prim (mkStruct [entry_q s (cs_size c) N] [OName "t"]) (entry_q s (cs_size c) N) [Z.of_nat j]) as H.
  apply H; [now left|reflexivity|]. repeat constructor; cbn; lia.
Qed.
Lemma q_sp s c N ct j : cs_struct ct = mkStruct [entry_q s (cs_size c) N] [OName "t"] -> Wf (cs_struct ct) -> j < N -> leaf_sp (cs_struct ct) (at_col j) = sp_dense (cs_size c) (cs_size c).
Proof. intros E Hw Hj. rewrite (leaf_sp_e _ _ _ Hw (q_leaf s c N ct j E Hj)). reflexivity. Qed.
Lemma q_tot s c N ct j : cs_struct ct = mkStruct [entry_q s (cs_size c) N] [OName "t"] -> Wf (cs_struct ct) -> j <= N ->
  tot (cs_struct ct) (map at_col (seq 0 j)) = j * (cs_size c * cs_size c).
Proof.
  intros E Hw Hj. induction j as [|j IH]; [reflexivity|]. rewrite seq_S, map_app. cbn [map plus]. rewrite tot_app, IH by lia.
  unfold tot. cbn [map list_sum fold_right]. rewrite (q_sp s c N ct j E Hw) by lia. rewrite nnz_dense. lia.
Qed.
Lemma q_map s c N ct j : cs_struct ct = mkStruct [entry_q s (cs_size c) N] [OName "t"] -> Wf (cs_struct ct) -> casadi_structure (cs_struct ct) = Ok ct -> j < N ->
  cmap_get (at_col j) (cs_map ct) = Some (dm_shift (j * (cs_size c * cs_size c)) (map_t (cs_size c) (cs_size c))).
Proof.
  intros E Hw Hc Hj. 
  assert (Hl : leaves (cs_struct ct) = map at_col (seq 0 j) ++ at_col j :: map at_col (seq (S j) (N - S j))).
  { rewrite E, q_leaves. replace N with (j + S (N - S j)) at 1 by lia. rewrite seq_app, map_app. reflexivity. }
  rewrite (map_leaf _ _ _ _ _ Hw Hc Hl), (q_sp s c N ct j E Hw Hj), (q_tot s c N ct j E Hw) by lia. unfold dm_shift, map_t. cbn [dm_sp dm_nz].
  rewrite nnz_dense, map_add_seq. do 3 f_equal. lia.
Qed.

Theorem squared_repeated_ok s c (a : dm T) N : Wf s -> casadi_structure s = Ok c -> DmOk a -> cs_size c <> 0 ->
  dm_shape a = (cs_size c, N * cs_size c) -> sp_is_dense (dm_sp a) = true ->
  exists vw ct, squared_repeated_ s c a = Ok vw /\ QView s c N ct vw (dm_nz a).
Proof.
  intros Hw Hc Ha H0 Hsh Hd. unfold dm_shape in Hsh. injection Hsh as Hr Hcl. unfold squared_repeated_.
  rewrite Hr, Nat.eqb_refl, Hcl. cbn [negb]. rewrite (proj2 (Nat.eqb_neq _ _) H0), Nat.mod_mul by exact H0. cbn [Nat.eqb negb].
  rewrite Nat.div_mul by exact H0.
  set (kw := [("shapestruct"%string, VTuple [VStructure s; VStructure s]); ("repeat"%string, VInt (Z.of_nat N))]).
  assert (He : entry_init "t" kw = Ok (CEntry (T := T) (entry_q s (cs_size c) N) None None)) by now apply entry_q_init.
  assert (Hk : NoDup (map fst kw)) by (repeat constructor; simpl; intuition discriminate).
  assert (Hv : forall k v, given kw k v -> ValOk (T := T) v) by (intros k v [[= <- <-]|[[= <- <-]|[]]]; simpl; auto).
  destruct (t_struct_ok kw _ Hk Hv He) as (ct & Et). rewrite Et. cbn [rbind].
  destruct (t_struct_built kw _ ct Hk Hv He Et) as (Hwt & Hct & Hent & Hord). cbn [ce_entry ce_name] in *.
  assert (Est : cs_struct ct = mkStruct [entry_q s (cs_size c) N] [OName "t"]).
  { destruct (cs_struct ct) as [es od]. simpl in *. subst. reflexivity. }
  unfold dense_elems. rewrite Hd. cbn [rbind]. unfold ref_struct.
  assert (Hsz : cs_size ct = cs_size c * cs_size c * N).
  { rewrite (size_formula _ _ Hwt Hct), <- (tot_size _ Hwt). rewrite Est at 2. rewrite q_leaves, (q_tot s c N ct N Est Hwt) by lia. lia. }
  rewrite Hsz, Nat.eqb_refl. cbn [negb rbind]. eexists. exists ct. split; [reflexivity|].
  constructor; auto. destruct Ha as [Hsp Hlen]. rewrite Hlen. unfold sp_is_dense in Hd. apply Nat.eqb_eq in Hd. unfold sp_nnz.
  unfold sp_nnz in Hd. rewrite Hd. unfold dm_nr, dm_nc in Hr, Hcl. rewrite Hr, Hcl. lia.
Qed.
Theorem squared_repeated_bad s c (a : dm T) : dm_nr a <> cs_size c \/ (cs_size c <> 0 /\ ~ Nat.divide (cs_size c) (dm_nc a)) ->
  squared_repeated_ s c a = Err EException.
Proof.
  intros H. unfold squared_repeated_. destruct (Nat.eqb_spec (dm_nr a) (cs_size c)) as [E|E]; [|reflexivity]. cbn [negb].
  destruct H as [H|[H0 H]]; [contradiction|]. rewrite (proj2 (Nat.eqb_neq _ _) H0).
  destruct (Nat.eqb_spec (dm_nc a mod cs_size c) 0) as [E2|E2]; [|reflexivity]. elim H. now apply Nat.mod_divide.
Qed.

(** Assignments [V[z, ...] = p] one after the other, whatever they return. *)
Inductive QWrites (N : nat) : view -> view -> Prop :=
| QWrites_none : forall vw, QWrites N vw vw
| QWrites_more : forall vw vw' vw'' z q p r, (- Z.of_nat N <= z < Z.of_nat N)%Z -> no_fun q ->
    view_set zero vw (PInt z :: q) p = (vw', r) -> QWrites N vw' vw'' -> QWrites N vw vw''.

Lemma q_access s c N ct vw v z q : Wf s -> casadi_structure s = Ok c -> QView s c N ct vw v ->
  (- Z.of_nat N <= z < Z.of_nat N)%Z -> no_fun q ->
  let n := cs_size c in let j := Z.to_nat (from_end (Z.of_nat N) z) in
  exists sq, squared_ s c (DM (sp_dense n n) (column (n * n) j v)) = Ok sq /\
    view_get zero vw (PInt z :: q) = view_get zero sq q /\
    forall p, exists sq' vw' r, view_set zero sq q p = (sq', r) /\ view_set zero vw (PInt z :: q) p = (vw', r) /\
      length (view_matrix sq') = n * n /\ QView s c N ct vw' (put_column (n * n) j v (view_matrix sq')).
Proof.
  intros Hw Hc [Eq Est Hwt Hct Hlen] Hz Hf n j.
  assert (Hj : j < N /\ from_end (Z.of_nat N) z = Z.of_nat j) by (unfold j, from_end; destruct (Z.ltb_spec z 0); lia). destruct Hj as [Hj Ej].
  set (et := entry_q s (cs_size c) N) in *. set (B := DM (sp_dense n n) (column (n * n) j v)).
  destruct (column_split (n * n) j N v Hlen Hj) as (Ev & Hl1 & Hl2).
  assert (HB : DmOk B). { split; [apply SpOk_dense|]. cbn [B dm_nz dm_sp]. rewrite nnz_dense. exact Hl2. }
  destruct (product_ok s c s c B Hw Hw Hc Hc eq_refl) as [sq Hsq]. exists sq. split; [exact Hsq|].
  destruct (product_inv s c s c B sq Hw Hw Hc Hc HB eq_refl Hsq) as [cq Hpv].
  destruct (pv_at s s n n cq sq B Hpv) as (Hat & Hmt & _). pose proof (pv_wf _ _ _ _ _ _ _ Hpv) as Hwq.
  assert (Ha1 : Addr (cs_struct ct) [KS "t"; KI z] (at_col j) et).
  { rewrite Est. pose proof (Addr_here (mkStruct [et] [OName "t"]) et [z]) as H. unfold from_ends in H. cbn in H. rewrite Ej in H. apply H; [now left|reflexivity]. }
  assert (Ha2 : Addr (cs_struct cq) [KS "t"] [KS "t"] (entry_t s s n n)) by (apply At_Addr; exact Hat).
  pose proof (q_map s c N ct j Est Hwt Hct Hj) as Hm1. fold n in Hm1. rewrite <- Hl1 in Hm1.
  assert (Hn : Forall (fun k => k < n * n) (dm_nz (map_t n n))) by (apply Forall_forall; intros k Hk; apply in_seq in Hk; lia).
  pose proof (pv_eq _ _ _ _ _ _ _ Hpv) as Esq. split.
  - rewrite Eq, Esq. unfold view_get, so_get. cbn [vw_obj vw_prefix so_c so_env so_st]. cbn [B dm_nz].
    rewrite Ev at 1 2.
    exact (leaf_get (cs_struct ct) (cs_struct cq) [KS "t"; KI z] (at_col j) [KS "t"] [KS "t"] et (entry_t s s n n) (cs_map ct) (cs_map cq)
      _ _ (map_t n n) (n * n) Hwt Hwq Ha1 Ha2 eq_refl eq_refl eq_refl eq_refl Hm1 Hmt (map_t_ok n n) Hn (column (n * n) j v) q Hl2 Hf).
  - intros p.
    destruct (leaf_set (cs_struct ct) (cs_struct cq) [KS "t"; KI z] (at_col j) [KS "t"] [KS "t"] et (entry_t s s n n) (cs_map ct) (cs_map cq)
      _ (skipn (j * (n * n) + n * n) v) (map_t n n) (n * n) Hwt Hwq Ha1 Ha2 eq_refl eq_refl eq_refl eq_refl Hm1 Hmt (map_t_ok n n) Hn (column (n * n) j v) q p Hl2 Hf)
      as (w' & r & Hl' & E1 & E2).
    rewrite <- Ev in E2. rewrite Eq, Esq. unfold view_set, so_set. cbn [vw_obj vw_prefix so_c so_env so_st]. cbn [B dm_nz].
    cbn [pidx map pck app] in E1, E2. cbn [app]. rewrite E1, E2. eexists. eexists. eexists. split; [reflexivity|]. split; [reflexivity|]. cbn [view_matrix vw_obj so_env en_kind so_st ps_master].
    split; [exact Hl'|]. constructor; auto. unfold put_column. rewrite !app_length, Hl1, Hl', skipn_length, Hlen. fold n. nia.
Qed.
Lemma q_writes s c N ct vw0 vw : Wf s -> casadi_structure s = Ok c -> QWrites N vw0 vw -> forall v0, QView s c N ct vw0 v0 -> exists v, QView s c N ct vw v.
Proof.
  intros Hw Hc H. induction H as [vw|vw vw1 vw2 z q p r Hz Hf E H IH]; intros v0 Hv; [eauto|].
  destruct (q_access s c N ct vw v0 z q Hw Hc Hv Hz Hf) as (sq & _ & _ & G). destruct (G p) as (sq' & vw' & r' & _ & E' & _ & Hv'). rewrite E in E'. injection E' as <- _.
  eapply IH; eauto.
Qed.

(** ** C81 *)
Theorem squared_repeated_blocks s c (a : dm T) N : Wf s -> casadi_structure s = Ok c -> DmOk a -> cs_size c <> 0 ->
  dm_shape a = (cs_size c, N * cs_size c) -> sp_is_dense (dm_sp a) = true ->
  let n := cs_size c in
  exists vw0, squared_repeated_ s c a = Ok vw0 /\ view_matrix vw0 = dm_nz a /\
  forall vw, QWrites N vw0 vw ->
    so_cat (vw_obj vw) = view_matrix vw /\ length (view_matrix vw) = N * (n * n) /\
    forall z q, (- Z.of_nat N <= z < Z.of_nat N)%Z -> no_fun q ->
      let j := Z.to_nat (from_end (Z.of_nat N) z) in
      exists sq, squared_ s c (DM (sp_dense n n) (column (n * n) j (view_matrix vw))) = Ok sq /\
        view_get zero vw (PInt z :: q) = view_get zero sq q /\
        forall p vw' r, view_set zero vw (PInt z :: q) p = (vw', r) ->
          exists sq', view_set zero sq q p = (sq', r) /\ length (view_matrix sq') = n * n /\
            view_matrix vw' = put_column (n * n) j (view_matrix vw) (view_matrix sq') /\ so_cat (vw_obj vw') = view_matrix vw'.
Proof.
  intros Hw Hc Ha H0 Hsh Hd n. destruct (squared_repeated_ok s c a N Hw Hc Ha H0 Hsh Hd) as (vw0 & ct & E0 & Hv0). exists vw0. split; [exact E0|].
  assert (Em : forall vw v, QView s c N ct vw v -> view_matrix vw = v /\ so_cat (vw_obj vw) = v) by (intros vw v Hv; rewrite (qv_eq _ _ _ _ _ _ Hv); split; reflexivity).
  split; [apply Em; exact Hv0|]. intros vw Hwr. destruct (q_writes s c N ct vw0 vw Hw Hc Hwr _ Hv0) as (v & Hv).
  destruct (Em vw v Hv) as [E1 E2]. rewrite E1. split; [exact E2|]. split; [exact (qv_len _ _ _ _ _ _ Hv)|]. intros z q Hz Hf j.
  destruct (q_access s c N ct vw v z q Hw Hc Hv Hz Hf) as (sq & Hsq & G1 & G2). exists sq. split; [exact Hsq|]. split; [exact G1|]. intros p vw' r Hset.
  destruct (G2 p) as (sq' & vw1 & r1 & A & B & C & D). rewrite Hset in B. injection B as <- <-. exists sq'. destruct (Em _ _ D) as [E3 E4].
  split; [exact A|]. split; [exact C|]. split; [exact E3|congruence].
Qed.
(** The element (i, j) of the [k]-th block is the element (i, k n + j) of the matrix. *)
Theorem block_element (a : dm T) n N k i j : DmOk a -> dm_sp a = sp_dense n (N * n) -> k < N -> i < n -> j < n ->
  dm_at (DM (sp_dense n n) (column (n * n) k (dm_nz a))) (i, j) = dm_at a (i, k * n + j).
Proof.
  intros Ha Hs Hk Hi Hj. assert (Hlen : length (dm_nz a) = N * (n * n)) by (destruct Ha as [_ ->]; rewrite Hs, nnz_dense; lia).
  destruct (column_split (n * n) k N (dm_nz a) Hlen Hk) as (Ev & Hl1 & Hl2).
  assert (HB : DmOk (DM (sp_dense n n) (column (n * n) k (dm_nz a)))) by (split; [apply SpOk_dense|cbn [dm_nz dm_sp]; now rewrite nnz_dense]).
  rewrite (dense_at (DM (sp_dense n n) (column (n * n) k (dm_nz a))) n n i j eq_refl HB Hi Hj), (dense_at a n (N * n) i (k * n + j) Hs Ha Hi) by nia. cbn [dm_nz].
  rewrite Ev at 2. rewrite nth_error_app2 by (rewrite Hl1; nia). rewrite Hl1. rewrite nth_error_app1 by (rewrite Hl2; nia). f_equal. nia.
Qed.
(** The default argument 0 is refused, except by a structure of size 1. *)
Theorem squared_repeated_default s c (x : T) : cs_size c <> 1 -> squared_repeated_ s c (dm_scalar x) = Err EException.
Proof. intros H. apply squared_repeated_bad. left. cbn. congruence. Qed.
End P.
