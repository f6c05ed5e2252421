(** Views of matrices: squared and product (C29, C30). *)
From Verif Require Import PyBase IndexModel DMModel StructModel StructSpec PowerModel PowerSpec
  IndexProofs StructProofs LayoutProofs LayoutThms LayoutExamples DMProofs PowerProofs PowerThms SliceProofs PowerThms2 PowerThms3 PowerThms4 PowerThms5
  EntryModel EntrySpec EntryProofs StructsModel StructsSpec StructsThms1 StructsThms2 StructsThms3 StructsThms4 StructsThms5 StructsThms6.
Open Scope nat_scope.

Section P.
Context {T : Type} (zero : T).
Notation rval := (rval T).
Notation pel := (pel T).
Notation pay := (pay T).
Notation env := (env T).
Notation pstate := (pstate T).
Notation sobj := (sobj T).
Notation view := (view T).

(** ** The structure with the single entry "t" *)
Lemma t_struct_built kw (ce : centry T) ct : NoDup (map fst kw) -> (forall k v, given kw k v -> ValOk v) -> entry_init "t" kw = Ok ce ->
  t_struct (entry_init "t" kw) = Ok ct ->
  Wf (cs_struct ct) /\ casadi_structure (cs_struct ct) = Ok ct /\ s_entries (cs_struct ct) = [ce_entry ce] /\ s_order (cs_struct ct) = [OName (ce_name ce)].
Proof.
  intros Hn Hv He H. unfold t_struct in H. rewrite He in H. cbn [rbind] in H.
  destruct (struct_ [IOne (AEntry ce)] None) as [[el c]|] eqn:Es; [|discriminate]. injection H as <-.
  assert (Hit : items_ok [IOne (AEntry ce)]).
  { intros it [<-|[]]. simpl. exact (entry_proper "t" kw ce Hn Hv He). }
  destruct (proj2 (struct_builds _ Hit) el c Es) as (A & B & C & _ & D). split; [exact A|]. split; [exact B|]. split; [exact C|exact D].
Qed.

Lemma nth_all_pos r c i j : i < r -> j < c -> nth_error (all_pos r c) (i + r * j) = Some (i, j).
Proof.
  intros Hi. unfold all_pos. revert j. induction c as [|c IH]; intros j Hj; [lia|].
  rewrite seq_S, flat_map_app. simpl. rewrite app_nil_r.
  assert (Hl : length (flat_map (fun j => map (fun i => (i, j)) (seq 0 r)) (seq 0 c)) = r * c).
  { fold (all_pos r c). apply all_pos_length. }
  destruct (Nat.eq_dec j c) as [->|Hjc].
  - rewrite nth_error_app2 by lia. rewrite Hl. replace (i + r * c - r * c) with i by lia.
    rewrite nth_error_map_. rewrite (nth_error_nth' (seq 0 r) 0) by (rewrite seq_length; lia). simpl. now rewrite seq_nth.
  - rewrite nth_error_app1; [apply IH; lia|]. rewrite Hl. nia.
Qed.
Lemma dense_at {A} (M : dm A) r c i j : dm_sp M = sp_dense r c -> DmOk M -> i < r -> j < c -> dm_at M (i, j) = nth_error (dm_nz M) (i + r * j).
Proof. intros E Hm Hi Hj. apply dm_at_nth; [exact Hm|]. rewrite E. now apply nth_all_pos. Qed.

Definition entry_t (s s2 : structure) (n m : nat) : entry := mkEntry "t" [] None (sp_dense n m) false None (Some [SDS s; SDS s2]).
Definition map_t (n m : nat) : dm nat := DM (sp_dense n m) (seq 0 (n * m)).

(** A product view showing the matrix [M]. *)
Record PView (s s2 : structure) (n m : nat) (ct : cstruct) (vw : view) (M : dm T) : Prop := {
  pv_eq : vw = View (SObj ct (Env (cs_map ct) [] KNz []) (PState (dm_nz M) [] [])) [PStr "t"];
  pv_struct : cs_struct ct = mkStruct [entry_t s s2 n m] [OName "t"];
  pv_wf : Wf (cs_struct ct);
  pv_built : casadi_structure (cs_struct ct) = Ok ct;
  pv_sp : dm_sp M = sp_dense n m;
  pv_ok : DmOk M
}.

Lemma t_leaf ct et : cs_struct ct = mkStruct [et] [OName "t"] -> e_name et = "t"%string -> e_dims et = [] -> e_struct et = None ->
  Wf (cs_struct ct) -> casadi_structure (cs_struct ct) = Ok ct ->
  At (cs_struct ct) [KS "t"] et /\ cmap_get [KS "t"] (cs_map ct) = Some (DM (e_sp et) (seq 0 (sp_nnz (e_sp et)))) /\ cs_size ct = sp_nnz (e_sp et).
Proof.
  intros Es En Ed Et Hw Hc.
  assert (Ha : At (cs_struct ct) [KS "t"] et).
  { rewrite Es. pose proof (At_here (mkStruct [et] [OName "t"]) et [] (or_introl eq_refl)) as X. rewrite Ed, En in X. apply X. constructor. }
  assert (Hl : leaves (cs_struct ct) = [[KS "t"]]).
  { rewrite Es. destruct et as [n0 d0 st0 sp0 sy0 og0 sh0]. cbn in En, Ed, Et. subst. reflexivity. }
  assert (Hsp : leaf_sp (cs_struct ct) [KS "t"] = e_sp et).
  { apply leaf_sp_e; [exact Hw|]. apply At_Leaf; assumption. }
  pose proof (map_leaf (cs_struct ct) ct [] [KS "t"] [] Hw Hc Hl) as Hm. rewrite Hsp in Hm.
  split; [exact Ha|]. split; [exact Hm|]. rewrite (build_size _ _ Hw Hc), Hl. unfold tot. simpl. rewrite Hsp. lia.
Qed.

Lemma nnz_dense r c : sp_nnz (sp_dense r c) = r * c.
Proof. unfold sp_nnz. simpl. apply all_pos_length. Qed.

Lemma fill_not_needed (a : dm T) n m : dm_shape a = (n, m) -> dm_is_scalar a && negb (n =? 1) = false.
Proof.
  unfold dm_shape, dm_is_scalar. intros [= E1 E2]. rewrite E1. destruct (n =? 1); [apply andb_false_r|reflexivity].
Qed.

Lemma sp_dense_shape sp : SpOk sp -> sp_is_dense sp = true -> sp = sp_dense (sp_nr sp) (sp_nc sp).
Proof.
  intros Hsp H. unfold sp_is_dense in H. apply Nat.eqb_eq in H. unfold sp_nnz in H.
  assert (Hinc : incl (sp_pat sp) (all_pos (sp_nr sp) (sp_nc sp))).
  { intros p Hp. apply in_all_pos. destruct Hsp as [_ Hb]. rewrite Forall_forall in Hb. exact (Hb p Hp). }
  assert (E : sp_pat sp = all_pos (sp_nr sp) (sp_nc sp)).
  { apply sorted_ext; [apply Hsp|apply sorted_all_pos|]. intros p. split; [apply Hinc|].
    apply NoDup_length_incl; [now apply SpOk_NoDup|rewrite all_pos_length; lia|exact Hinc]. }
  destruct sp as [r c pt]. cbn [sp_nr sp_nc sp_pat] in *. unfold sp_dense. now rewrite E.
Qed.

(** ** What [product] builds *)
Lemma product_inv s c s2 c2 (a : dm T) vw : Wf s -> Wf s2 -> casadi_structure s = Ok c -> casadi_structure s2 = Ok c2 -> DmOk a ->
  dm_shape a = (cs_size c, cs_size c2) -> product_ s c s2 c2 a = Ok vw ->
  exists ct, PView s s2 (cs_size c) (cs_size c2) ct vw a.
Proof.
  intros Hw Hw2 Hc Hc2 Ha Hsh H. unfold product_ in H. rewrite (fill_not_needed a _ _ Hsh) in H.
  unfold dm_shape in Hsh. injection Hsh as E1 E2. rewrite E1, E2, !Nat.eqb_refl in H. cbn [andb negb] in H.
  set (kw := [("shapestruct"%string, VTuple [VStructure s; VStructure s2])]) in H.
  assert (He : entry_init "t" kw = Ok (CEntry (T := T) (entry_t s s2 (cs_size c) (cs_size c2)) None None)).
  { unfold entry_init, kw. cbn. rewrite Hc. cbn. rewrite Hc2. cbn.
    destruct (Z.ltb_spec (Z.of_nat (cs_size c)) 0); [lia|]. destruct (Z.ltb_spec (Z.of_nat (cs_size c2)) 0); [lia|]. cbn. rewrite !Nat2Z.id. reflexivity. }
  destruct (t_struct (entry_init "t" kw)) as [ct|] eqn:Et; [|discriminate]. cbn [rbind] in H.
  destruct (t_struct_built kw _ ct ltac:(repeat constructor; simpl; tauto)
    ltac:(intros k v [[= <- <-]|[]]; simpl; auto) He Et) as (Hwt & Hct & Hent & Hord).
  unfold dense_elems in H. destruct (sp_is_dense (dm_sp a)) eqn:Ed; [|discriminate]. cbn [rbind] in H.
  unfold ref_struct in H. destruct (cs_size c * cs_size c2 =? cs_size ct); [|discriminate]. cbn [negb rbind] in H. injection H as <-.
  exists ct. split; auto.
  - destruct (cs_struct ct) as [es o]. cbn in Hent, Hord. now subst.
  - rewrite (sp_dense_shape (dm_sp a) (proj1 Ha) Ed). fold (dm_nr a) (dm_nc a). now rewrite E1, E2.
Qed.

(** Writing with a structurally empty scalar is the only difference between [v[i] = m] and [v.nz[i] = m]. *)
Lemma set_nz_eq (v : list T) i m : (dm_is_scalar m = true -> dm_nz m <> []) -> vec_set_nz zero v i m = vec_set zero v i m.
Proof.
  intros H. unfold vec_set_nz, vec_set, vec_assign. destruct (spy_eqb _ _); [reflexivity|]. destruct (dm_is_scalar m); [|reflexivity].
  destruct (dm_nz m); [destruct (H eq_refl eq_refl)|reflexivity].
Qed.

Lemma get_kind s c k mp (st : pstate) ci e ex : Wf s -> At s ci e -> e_struct e = None ->
  getitem zero s (Env (cs_map c) [] k mp) (pidx ci ++ ex) st = getitem zero s (num_env c) (pidx ci ++ ex) st.
Proof.
  intros Hw Ha He. unfold getitem. rewrite !(travS_at zero s ci e Ha Hw). unfold endD, subT. rewrite He. destruct ex; reflexivity.
Qed.
Lemma set_kind_nz s c mp (st : pstate) ci e ex v M : Wf s -> At s ci e -> e_struct e = None -> e_symm e = false -> to_mtype v = Ok M ->
  (dm_is_scalar M = true -> dm_nz M <> []) ->
  setitem zero s (Env (cs_map c) [] KNz mp) (pidx ci ++ ex) v st = setitem zero s (num_env c) (pidx ci ++ ex) v st.
Proof.
  intros Hw Ha He Hs HM Hne. unfold setitem. rewrite !(travS_at zero s ci e Ha Hw). unfold endD, subT. rewrite He.
  assert (G : forall x, mwrap (dispatch zero (Env (cs_map c) [] KNz mp) MSet v ([] ++ ci) x (Some (info zero e))) st =
                        mwrap (dispatch zero (num_env c) MSet v ([] ++ ci) x (Some (info zero e))) st).
  { intros x. unfold mwrap. cbn [dispatch]. unfold setter, mbind, mlift. rewrite HM. cbn [en_map num_env]. destruct (cmap_get _ _) as [mi|]; [|reflexivity].
    destruct (performExtraIndex _ _ _ _) as [r|]; [destruct r; try reflexivity|reflexivity]. cbn [is_symm info ei_symm]. rewrite Hs.
    unfold master_set. cbn [en_kind num_env]. now rewrite (set_nz_eq _ _ _ Hne). }
  destruct ex; apply G.
Qed.

(** ** Selecting rows or columns by the names of a structure *)
Inductive RowSel (s : structure) : pel -> list nat -> Prop :=
| RowSel_name : forall a l, f_get zero s [PStr a] = Ok (RFlat l) -> RowSel s (PStr a) l
| RowSel_names : forall ns l, Forall (fun k => exists a, k = KS a) ns -> ns <> [] -> f_get zero s [PLst ns] = Ok (RFlat l) -> RowSel s (PLst ns) l
| RowSel_indexf : forall arg l, f_get zero s arg = Ok (RFlat l) -> RowSel s (PDel true arg) l
| RowSel_index : forall arg m, i_get zero s arg = Ok (RIdx m) -> sp_is_dense (dm_sp m) = true -> dm_nc m = 1 \/ dm_nr m = 1 ->
    RowSel s (PDel false arg) (dm_nz m).

Lemma rowsel_del s p l (e : entry) pos : RowSel s p l ->
  nth_error (match ei_del (info zero e) with Some d => d | None => [] end) pos = Some (Some (index_getter s (travS zero s))) -> 
  ei_del (info zero e) <> None ->
  exists d, delegation (Some (info zero e)) pos p = Ok d /\ dsel_sel d = Some (SelList (map Z.of_nat l)).
Proof.
  intros Hp Hn Hd. destruct (ei_del (info zero e)) as [d|] eqn:Ed; [|contradiction].
  destruct Hp as [a l H|ns l Hs Hne H|arg l H|arg m H Hd1 Hd2]; unfold f_get, i_get in H; cbn [delegation].
  - unfold delegate. rewrite Ed, Hn, H. eexists. split; reflexivity.
  - assert (E1 : ck_ints ns = None). { destruct ns as [|k ns]; [contradiction|]. inversion Hs as [|? ? [a ->] _]; subst. reflexivity. }
    assert (E2 : forallb is_string ns = true). { apply forallb_forall. intros k Hk. rewrite Forall_forall in Hs. destruct (Hs k Hk) as [a ->]. reflexivity. }
    rewrite E1, E2. unfold delegate. rewrite Ed, Hn, H. eexists. split; reflexivity.
  - unfold delegate. rewrite Ed, Hn, H. eexists. split; reflexivity.
  - unfold delegate. rewrite Ed, Hn, H. cbn [rbind]. rewrite Hd1. destruct (dm_nc m =? 1) eqn:F; cbn [andb]; [eexists; split; reflexivity|].
    destruct Hd2 as [Hd2|Hd2]; [rewrite Hd2 in F; discriminate|]. rewrite Hd2. eexists. split; reflexivity.
Qed.
Lemma sel_list n l : Forall (fun k => k < n) l -> sel_resolve (SelList (map Z.of_nat l)) n = Ok l.
Proof.
  intros H. simpl. induction H as [|k l Hk _ IH]; [reflexivity|]. simpl. rewrite IH. unfold norm_index.
  destruct ((- Z.of_nat n <=? Z.of_nat k) && (Z.of_nat k <? Z.of_nat n))%Z eqn:E.
  - simpl. destruct (Z.ltb_spec (Z.of_nat k) 0); [lia|]. now rewrite Nat2Z.id.
  - apply andb_false_iff in E as [E|E]; lia.
Qed.

Section View.
Context (s s2 : structure) (n m : nat) (ct : cstruct) (vw : view) (M : dm T) (Hv : PView s s2 n m ct vw M).
Let et := entry_t s s2 n m.

Lemma pv_at : At (cs_struct ct) [KS "t"] et /\ cmap_get [KS "t"] (cs_map ct) = Some (map_t n m) /\ cs_size ct = n * m.
Proof.
  destruct (t_leaf ct et (pv_struct _ _ _ _ _ _ _ Hv) eq_refl eq_refl eq_refl (pv_wf _ _ _ _ _ _ _ Hv) (pv_built _ _ _ _ _ _ _ Hv)) as (A & B & C).
  cbn [et entry_t e_sp] in B, C. rewrite nnz_dense in B, C. auto.
Qed.
Lemma pv_obj : Obj (cs_struct ct) ct (PState (dm_nz M) [] []).
Proof.
  split; [exact (pv_wf _ _ _ _ _ _ _ Hv)|exact (pv_built _ _ _ _ _ _ _ Hv)|]. cbn [ps_master].
  destruct (pv_ok _ _ _ _ _ _ _ Hv) as [_ ->]. rewrite (pv_sp _ _ _ _ _ _ _ Hv), nnz_dense. now rewrite (proj2 (proj2 pv_at)).
Qed.

Lemma pv_pei p q la lb i : RowSel s p la -> RowSel s2 q lb -> Forall (fun k => k < n) la -> Forall (fun k => k < m) lb ->
  dm_sp i = sp_dense n m ->
  performExtraIndex (Some (info zero et)) false (@RIdx T i) [p; q] = Ok (RIdx (dm_sub i la lb)).
Proof.
  intros Hp Hq Hla Hlb Hi.
  assert (K : performExtraIndex (Some (info zero et)) false (RIdx i) [p; q] =
     rbind (delegation (Some (info zero et)) 0 p) (fun a' => rbind (delegation (Some (info zero et)) 1 q) (fun b' => getitem2 (RIdx i) a' b'))).
  { destruct Hp; reflexivity. }
  destruct (rowsel_del s p la et 0 Hp) as (d1 & D1 & S1); [reflexivity|discriminate|].
  destruct (rowsel_del s2 q lb et 1 Hq) as (d2 & D2 & S2); [reflexivity|discriminate|].
  rewrite K, D1. cbn [rbind]. rewrite D2. cbn [rbind]. unfold getitem2. rewrite S1, S2.
  unfold dm_get2, dm_nr, dm_nc. rewrite Hi. cbn [sp_dense sp_nr sp_nc]. rewrite (sel_list n la Hla). cbn [rbind]. rewrite (sel_list m lb Hlb). reflexivity.
Qed.

Lemma vals_t : vals zero (dm_nz M) (map_t n m) = M.
Proof.
  destruct (pv_ok _ _ _ _ _ _ _ Hv) as [_ Hl]. rewrite (pv_sp _ _ _ _ _ _ _ Hv), nnz_dense in Hl.
  pose proof (pv_sp _ _ _ _ _ _ _ Hv) as Hs. clear Hv. destruct M as [sp nz]. cbn [dm_sp dm_nz] in *. subst sp. unfold vals, map_t, dm_map. cbn [dm_sp dm_nz]. f_equal.
  pose proof (window_read zero [] nz []) as W. cbn [app length] in W. rewrite app_nil_r in W. rewrite <- Hl. exact W.
Qed.

Theorem view_block p q la lb : RowSel s p la -> RowSel s2 q lb -> Forall (fun k => k < n) la -> Forall (fun k => k < m) lb ->
  exists B, view_get zero vw [p; q] = Ok (RMat B) /\ dm_shape B = (length la, length lb) /\
    forall i j, i < length la -> j < length lb -> dm_at B (i, j) = dm_at M (nth i la 0, nth j lb 0).
Proof.
  intros Hp Hq Hla Hlb. destruct pv_at as (Ha & Hm & Hsz). pose proof (pv_wf _ _ _ _ _ _ _ Hv) as Hw.
  exists (dm_sub M la lb). split; [|split; [reflexivity|]].
  - rewrite (pv_eq _ _ _ _ _ _ _ Hv). unfold view_get, so_get. cbn [vw_obj vw_prefix so_c so_env so_st].
    change ([PStr "t"] ++ [p; q]) with (pidx (T := T) [KS "t"] ++ [p; q]).
    rewrite (get_kind (cs_struct ct) ct KNz [] _ [KS "t"] et [p; q] Hw Ha eq_refl).
    rewrite (getitem_extra zero (cs_struct ct) ct _ [KS "t"] et (map_t n m) [p; q] (dm_sub (map_t n m) la lb) pv_obj Ha eq_refl eq_refl Hm).
    + cbn [ps_master]. do 2 f_equal. unfold vals, dm_sub. rewrite dm_map_build. apply dm_build_ext. intros x _ _.
      rewrite <- dm_at_map. fold (vals zero (dm_nz M) (map_t n m)). now rewrite vals_t.
    + discriminate.
    + apply dm_build_ok.
    + intros x. apply dm_sub_nz.
    + apply pv_pei; auto.
  - intros i j Hi Hj. unfold dm_sub. rewrite dm_build_at. cbn [fst snd]. apply Nat.ltb_lt in Hi, Hj. rewrite Hi, Hj. reflexivity.
Qed.

Lemma build_full {A} r c (f : nat * nat -> option A) g : (forall x, fst x < r -> snd x < c -> f x = Some (g x)) ->
  dm_build r c f = DM (sp_dense r c) (map g (all_pos r c)).
Proof.
  intros H. unfold dm_build. 
  assert (E : flat_map (fun p => match f p with Some v => [(p, v)] | None => [] end) (all_pos r c) = map (fun p => (p, g p)) (all_pos r c)).
  { assert (G : forall x, In x (all_pos r c) -> f x = Some (g x)) by (intros x Hx; apply in_all_pos in Hx as [? ?]; auto).
    revert G. generalize (all_pos r c) as l. induction l as [|x l IH]; intros G; [reflexivity|]. simpl. rewrite (G x) by now left.
    simpl. f_equal. apply IH. intros y Hy. apply G. now right. }
  rewrite E, !map_map. simpl. rewrite map_id. reflexivity.
Qed.

Definition pos_t (la lb : list nat) : list nat := map (fun x => nth (fst x) la 0 + n * nth (snd x) lb 0) (all_pos (length la) (length lb)).
Lemma Forall_nth_lt k l i : Forall (fun x => x < k) l -> i < length l -> nth i l 0 < k.
Proof. intros H Hi. rewrite Forall_forall in H. apply H. now apply nth_In. Qed.
Lemma map_t_ok : DmOk (map_t n m).
Proof. split; [apply SpOk_dense|]. unfold map_t. cbn [dm_nz dm_sp]. now rewrite seq_length, nnz_dense. Qed.
Lemma map_t_at i j : i < n -> j < m -> dm_at (map_t n m) (i, j) = Some (i + n * j).
Proof.
  intros Hi Hj. rewrite (dense_at (map_t n m) n m i j eq_refl map_t_ok Hi Hj). unfold map_t. cbn [dm_nz].
  rewrite (nth_error_nth' _ 0) by (rewrite seq_length; nia). f_equal. rewrite seq_nth; nia.
Qed.
Lemma sub_t la lb : Forall (fun k => k < n) la -> Forall (fun k => k < m) lb ->
  dm_sub (map_t n m) la lb = DM (sp_dense (length la) (length lb)) (pos_t la lb).
Proof.
  intros Hla Hlb. unfold dm_sub. apply build_full. intros x H1 H2. apply map_t_at; now apply Forall_nth_lt.
Qed.
Lemma lin_inj i j i' j' : i < n -> i' < n -> i + n * j = i' + n * j' -> i = i' /\ j = j'.
Proof. intros Hi Hi' E. assert (j = j') by nia. subst. split; [lia|reflexivity]. Qed.
Lemma NoDup_map_in {A B} (f : A -> B) l : (forall x y, In x l -> In y l -> f x = f y -> x = y) -> NoDup l -> NoDup (map f l).
Proof.
  induction l as [|a l IH]; intros Hf Hl; [constructor|]. inversion Hl; subst. simpl. constructor.
  - intros Hi. apply in_map_iff in Hi as (b & E & Hb). assert (b = a) by (apply Hf; simpl; auto). congruence.
  - apply IH; [|assumption]. intros x y Hx Hy. apply Hf; now right.
Qed.
Lemma dm_at_none {A} (d : dm A) p : ~ In p (sp_pat (dm_sp d)) -> dm_at d p = None.
Proof. intros H. destruct (dm_at d p) eqn:E; [|reflexivity]. destruct H. eapply dm_at_In; eauto. Qed.
Lemma nodup_pos la lb : Forall (fun k => k < n) la -> NoDup la -> NoDup lb -> NoDup (pos_t la lb).
Proof.
  intros Hla Ha Hb. unfold pos_t. apply NoDup_map_in; [|apply NoDup_all_pos].
  intros [i j] [i' j'] Hx Hy E. apply in_all_pos in Hx as [X1 X2], Hy as [Y1 Y2]. cbn [fst snd] in *.
  destruct (lin_inj _ _ _ _ (Forall_nth_lt n la i Hla X1) (Forall_nth_lt n la i' Hla Y1) E) as [E1 E2].
  pose proof (proj1 (NoDup_nth la 0) Ha i i' X1 Y1 E1) as ->. pose proof (proj1 (NoDup_nth lb 0) Hb j j' X2 Y2 E2) as ->. reflexivity.
Qed.

Theorem view_block_write p q la lb v B vw' r : RowSel s p la -> RowSel s2 q lb -> Forall (fun k => k < n) la -> Forall (fun k => k < m) lb ->
  NoDup la -> NoDup lb -> pay_ok v -> to_mtype v = Ok B -> (dm_is_scalar B = true -> dm_nz B <> []) ->
  view_set zero vw [p; q] v = (vw', Ok r) ->
  fits B (sp_dense (length la) (length lb)) /\
  exists M', PView s s2 n m ct vw' M' /\
    (forall i j, i < length la -> j < length lb -> dm_at M' (nth i la 0, nth j lb 0) = Some (fit zero B (sp_dense (length la) (length lb)) (i, j))) /\
    (forall x, ~ (In (fst x) la /\ In (snd x) lb) -> dm_at M' x = dm_at M x).
Proof.
  intros Hp Hq Hla Hlb Hna Hnb Hpay HB Hne H. destruct pv_at as (Ha & Hm & Hsz). pose proof (pv_wf _ _ _ _ _ _ _ Hv) as Hw.
  pose proof pv_obj as Ho. rewrite (pv_eq _ _ _ _ _ _ _ Hv) in H. unfold view_set, so_set in H. cbn [vw_obj vw_prefix so_c so_env so_st] in H.
  change ([PStr "t"] ++ [p; q]) with (pidx (T := T) [KS "t"] ++ [p; q]) in H.
  rewrite (set_kind_nz (cs_struct ct) ct [] _ [KS "t"] et [p; q] v B Hw Ha eq_refl eq_refl HB Hne) in H.
  set (st := PState (dm_nz M) [] []) in *. pose proof (sub_t la lb Hla Hlb) as Esub. set (mi := DM (sp_dense (length la) (length lb)) (pos_t la lb)) in *.
  assert (Hok : DmOk mi) by (rewrite <- Esub; apply dm_build_ok).
  assert (Hib : inb (ps_master st) mi).
  { unfold inb. apply Forall_forall. intros k Hk. rewrite <- Esub in Hk. apply dm_sub_nz in Hk. rewrite (ob_len _ _ _ Ho), Hsz. apply in_seq in Hk. lia. }
  unfold setitem in H. rewrite (travS_at zero _ _ et Ha Hw) in H. unfold endD, subT in H. cbn [et entry_t e_struct] in H.
  unfold mwrap in H. cbn [dispatch] in H. unfold setter, mbind, mlift in H. rewrite HB in H. cbn [num_env en_map en_kind app extra] in H. rewrite Hm in H.
  fold et in H. rewrite (pv_pei p q la lb (map_t n m) Hp Hq Hla Hlb eq_refl) in H. cbn [is_symm info et entry_t ei_symm e_symm] in H.
  rewrite Esub in H. unfold master_set in H.
  destruct (vec_set_ok zero (ps_master st) mi B Hok (to_mtype_ok v B Hpay HB) Hib) as [[Hf E]|[Hf E]]; rewrite E in H; [|discriminate].
  injection H as <- <-.
  split; [exact Hf|]. cbn [ps_mirror ps_storage st].
  set (w := vec_set_list _ _ _) in *.
  assert (Hlw : length w = n * m).
  { unfold w. rewrite vec_set_list_length. rewrite (ob_len _ _ _ Ho). exact Hsz. }
  assert (HM' : DmOk (DM (sp_dense n m) w)).
  { split; [apply SpOk_dense|]. cbn [dm_nz dm_sp]. now rewrite nnz_dense. }
  exists (DM (sp_dense n m) w). split; [|split].
  - split; try reflexivity; [exact (pv_struct _ _ _ _ _ _ _ Hv)|exact Hw|exact (pv_built _ _ _ _ _ _ _ Hv)|exact HM'].
  - intros i j Hi Hj. rewrite (dense_at (DM (sp_dense n m) w) n m _ _ eq_refl HM') by (apply Forall_nth_lt; assumption). cbn [dm_nz].
    assert (Hw1 : map (fun k => nth k w zero) (pos_t la lb) = map (fit zero B (sp_dense (length la) (length lb))) (all_pos (length la) (length lb))).
    { unfold w. cbn [mi dm_nz dm_sp sp_dense sp_pat]. apply vec_set_list_vals.
      - now apply nodup_pos.
      - exact Hib.
      - unfold pos_t. now rewrite !map_length. }
    apply (f_equal (fun l => nth_error l (i + length la * j))) in Hw1. unfold pos_t in Hw1.
    rewrite !nth_error_map_, (nth_all_pos _ _ i j Hi Hj) in Hw1. cbn [option_map fst snd] in Hw1. injection Hw1 as Hw1.
    rewrite (nth_error_nth' w zero); [now rewrite Hw1|]. rewrite Hlw.
    pose proof (Forall_nth_lt n la i Hla Hi). pose proof (Forall_nth_lt m lb j Hlb Hj). nia.
  - intros [i j] Hx. cbn [fst snd] in Hx. destruct (Nat.ltb_spec i n) as [Hi|Hi]; [destruct (Nat.ltb_spec j m) as [Hj|Hj]|].
    + rewrite (dense_at (DM (sp_dense n m) w) n m i j eq_refl HM' Hi Hj), (dense_at M n m i j (pv_sp _ _ _ _ _ _ _ Hv) (pv_ok _ _ _ _ _ _ _ Hv) Hi Hj).
      cbn [dm_nz]. unfold w. cbn [mi dm_nz dm_sp]. rewrite vec_set_list_other; [reflexivity|].
      intros Hin. unfold pos_t in Hin. apply in_map_iff in Hin as ([i' j'] & E1 & Hin). apply in_all_pos in Hin as [Y1 Y2]. cbn [fst snd] in *.
      destruct (lin_inj _ _ _ _ (Forall_nth_lt n la i' Hla Y1) Hi E1) as [<- <-]. apply Hx. split; now apply nth_In.
    + rewrite !dm_at_none; [reflexivity| |]; [rewrite (pv_sp _ _ _ _ _ _ _ Hv)|]; cbn [dm_sp sp_dense sp_pat]; rewrite in_all_pos; cbn [fst snd]; lia.
    + rewrite !dm_at_none; [reflexivity| |]; [rewrite (pv_sp _ _ _ _ _ _ _ Hv)|]; cbn [dm_sp sp_dense sp_pat]; rewrite in_all_pos; cbn [fst snd]; lia.
Qed.
End View.

(** ** [product] succeeds for every dense matrix of the right shape *)
Lemma t_struct_ok kw (ce : centry T) : NoDup (map fst kw) -> (forall k v, given kw k v -> ValOk v) -> entry_init "t" kw = Ok ce ->
  exists ct, t_struct (entry_init "t" kw) = Ok ct.
Proof.
  intros Hn Hv He. unfold t_struct. rewrite He. cbn [rbind].
  assert (Hit : items_ok [IOne (AEntry ce)]).
  { intros it [<-|[]]. simpl. exact (entry_proper "t" kw ce Hn Hv He). }
  destruct (proj2 (proj1 (struct_builds _ Hit))) as (el & c & ->); [repeat constructor; intros []|]. exists c. reflexivity.
Qed.

Theorem product_ok s c s2 c2 (a : dm T) : Wf s -> Wf s2 -> casadi_structure s = Ok c -> casadi_structure s2 = Ok c2 ->
  dm_sp a = sp_dense (cs_size c) (cs_size c2) -> exists vw, product_ s c s2 c2 a = Ok vw.
Proof.
  intros Hw Hw2 Hc Hc2 Hsp.
  assert (Hsh : dm_shape a = (cs_size c, cs_size c2)) by (unfold dm_shape, dm_nr, dm_nc; now rewrite Hsp).
  unfold product_. rewrite (fill_not_needed a _ _ Hsh). pose proof Hsh as Hsh2. unfold dm_shape in Hsh2. injection Hsh2 as E1 E2. rewrite E1, E2, !Nat.eqb_refl. cbn [andb negb].
  set (kw := [("shapestruct"%string, VTuple [VStructure s; VStructure s2])]).
  assert (He : entry_init "t" kw = Ok (CEntry (T := T) (entry_t s s2 (cs_size c) (cs_size c2)) None None)).
  { unfold entry_init, kw. cbn. rewrite Hc. cbn. rewrite Hc2. cbn.
    destruct (Z.ltb_spec (Z.of_nat (cs_size c)) 0); [lia|]. destruct (Z.ltb_spec (Z.of_nat (cs_size c2)) 0); [lia|]. cbn. rewrite !Nat2Z.id. reflexivity. }
  assert (Hnd : NoDup (map fst kw)) by (repeat constructor; simpl; tauto).
  assert (Hval : forall k v, given kw k v -> ValOk v) by (intros k v [[= <- <-]|[]]; simpl; auto).
  destruct (t_struct_ok kw _ Hnd Hval He) as [ct Et]. rewrite Et. cbn [rbind].
  destruct (t_struct_built kw _ ct Hnd Hval He Et) as (Hwt & Hct & Hent & Hord).
  unfold dense_elems. rewrite Hsp. unfold sp_is_dense. rewrite nnz_dense. cbn [sp_dense sp_nr sp_nc]. rewrite Nat.eqb_refl. cbn [rbind].
  unfold ref_struct. destruct (t_leaf ct (entry_t s s2 (cs_size c) (cs_size c2))) as (_ & _ & Hsz); auto.
  { destruct (cs_struct ct) as [es o]. cbn in Hent, Hord. now subst. }
  cbn [entry_t e_sp] in Hsz. rewrite nnz_dense in Hsz. rewrite Hsz, Nat.eqb_refl. eexists. reflexivity.
Qed.

Theorem product_scalar s c s2 c2 (a : dm T) x : Wf s -> Wf s2 -> casadi_structure s = Ok c -> casadi_structure s2 = Ok c2 ->
  dm_shape a = (1, 1) -> dm_nz a = [x] -> cs_size c <> 1 ->
  exists vw, product_ s c s2 c2 a = Ok vw /\ view_matrix vw = repeat x (cs_size c * cs_size c2) /\
    product_ s c s2 c2 (DM (sp_dense (cs_size c) (cs_size c2)) (repeat x (cs_size c * cs_size c2))) = Ok vw.
Proof.
  intros Hw Hw2 Hc Hc2 Hsh Hnz Hn1. set (a' := DM (sp_dense (cs_size c) (cs_size c2)) (repeat x (cs_size c * cs_size c2))).
  assert (E : product_ s c s2 c2 a = product_ s c s2 c2 a').
  { unfold product_. rewrite (fill_not_needed a' (cs_size c) (cs_size c2) eq_refl).
    assert (Es : dm_is_scalar a && negb (cs_size c =? 1) = true).
    { unfold dm_shape in Hsh. injection Hsh as E1 E2. unfold dm_is_scalar. rewrite E1, E2. simpl. apply Nat.eqb_neq in Hn1. now rewrite Hn1. }
    rewrite Es. unfold fill_scalar. rewrite Hnz. reflexivity. }
  destruct (product_ok s c s2 c2 a' Hw Hw2 Hc Hc2 eq_refl) as [vw Hvw]. exists vw. rewrite E. split; [exact Hvw|]. split; [|exact Hvw].
  destruct (product_inv s c s2 c2 a' vw Hw Hw2 Hc Hc2) as [ct Hpv]; auto.
  - split; [apply SpOk_dense|]. cbn [a' dm_nz dm_sp]. rewrite nnz_dense. apply repeat_length.
  - now rewrite (pv_eq _ _ _ _ _ _ _ Hpv).
Qed.
(** [squared] has no exception: a structure of size 1 takes the scalar as it is. *)
Theorem squared_scalar s c (a : dm T) x : Wf s -> casadi_structure s = Ok c -> SpOk (dm_sp a) ->
  dm_shape a = (1, 1) -> dm_nz a = [x] -> sp_nnz (dm_sp a) = 1 ->
  exists vw, squared_ s c a = Ok vw /\ view_matrix vw = repeat x (cs_size c * cs_size c).
Proof.
  intros Hw Hc Hok Hsh Hnz Hn. unfold squared_. destruct (Nat.eq_dec (cs_size c) 1) as [E|E].
  - assert (Hsp : dm_sp a = sp_dense (cs_size c) (cs_size c)).
    { unfold dm_shape, dm_nr, dm_nc in Hsh. injection Hsh as E1 E2. rewrite E. rewrite (sp_dense_shape (dm_sp a) Hok); [now rewrite E1, E2|].
      unfold sp_is_dense. rewrite Hn, E1, E2. reflexivity. }
    destruct (product_ok s c s c a Hw Hw Hc Hc Hsp) as [vw Hvw]. exists vw. split; [exact Hvw|].
    destruct (product_inv s c s c a vw Hw Hw Hc Hc) as [ct Hpv]; auto.
    + split; [exact Hok|]. now rewrite Hnz, Hn.
    + rewrite Hsh, E. reflexivity.
    + rewrite (pv_eq _ _ _ _ _ _ _ Hpv). cbn. rewrite Hnz, E. reflexivity.
  - destruct (product_scalar s c s c a x Hw Hw Hc Hc Hsh Hnz E) as (vw & A & B & _). eauto.
Qed.

(** ** Sequences of block assignments *)
Inductive Writes (s s2 : structure) (n m : nat) : view -> view -> Prop :=
| Writes_none : forall vw, Writes s s2 n m vw vw
| Writes_more : forall vw vw' vw'' p q la lb v B r,
    RowSel s p la -> RowSel s2 q lb -> Forall (fun k => k < n) la -> Forall (fun k => k < m) lb -> NoDup la -> NoDup lb ->
    pay_ok v -> to_mtype v = Ok B -> (dm_is_scalar B = true -> dm_nz B <> []) ->
    view_set zero vw [p; q] v = (vw', Ok r) -> Writes s s2 n m vw' vw'' -> Writes s s2 n m vw vw''.

Lemma writes_view s s2 n m ct vw vw' : Writes s s2 n m vw vw' -> forall M, PView s s2 n m ct vw M -> exists M', PView s s2 n m ct vw' M'.
Proof.
  induction 1 as [vw|vw vw1 vw2 p q la lb v B r Hp Hq Hla Hlb Hna Hnb Hpay HB Hne H Hw IH]; intros M Hv; [eauto|].
  destruct (view_block_write s s2 n m ct vw M Hv p q la lb v B vw1 r) as (_ & M' & Hv' & _); auto. exact (IH M' Hv').
Qed.

Theorem product_blocks s c s2 c2 (a : dm T) vw0 vw : Wf s -> Wf s2 -> casadi_structure s = Ok c -> casadi_structure s2 = Ok c2 -> DmOk a ->
  dm_shape a = (cs_size c, cs_size c2) -> product_ s c s2 c2 a = Ok vw0 -> Writes s s2 (cs_size c) (cs_size c2) vw0 vw ->
  view_matrix vw0 = dm_nz a /\
  exists M, dm_sp M = dm_sp a /\ view_matrix vw = dm_nz M /\
  forall p q la lb, RowSel s p la -> RowSel s2 q lb -> Forall (fun k => k < cs_size c) la -> Forall (fun k => k < cs_size c2) lb ->
    (exists B, view_get zero vw [p; q] = Ok (RMat B) /\ dm_shape B = (length la, length lb) /\
       forall i j, i < length la -> j < length lb -> dm_at B (i, j) = dm_at M (nth i la 0, nth j lb 0)) /\
    (forall v B vw' r, NoDup la -> NoDup lb -> pay_ok v -> to_mtype v = Ok B -> (dm_is_scalar B = true -> dm_nz B <> []) ->
       view_set zero vw [p; q] v = (vw', Ok r) ->
       fits B (sp_dense (length la) (length lb)) /\
       exists M', dm_sp M' = dm_sp a /\ view_matrix vw' = dm_nz M' /\
         (forall i j, i < length la -> j < length lb -> dm_at M' (nth i la 0, nth j lb 0) = Some (fit zero B (sp_dense (length la) (length lb)) (i, j))) /\
         (forall x, ~ (In (fst x) la /\ In (snd x) lb) -> dm_at M' x = dm_at M x)).
Proof.
  intros Hw Hw2 Hc Hc2 Ha Hsh H Hwr. destruct (product_inv s c s2 c2 a vw0 Hw Hw2 Hc Hc2 Ha Hsh H) as [ct Hv0].
  split; [now rewrite (pv_eq _ _ _ _ _ _ _ Hv0)|].
  destruct (writes_view _ _ _ _ ct _ _ Hwr a Hv0) as [M Hv]. exists M.
  rewrite (pv_sp _ _ _ _ _ _ _ Hv0). split; [exact (pv_sp _ _ _ _ _ _ _ Hv)|]. split; [now rewrite (pv_eq _ _ _ _ _ _ _ Hv)|].
  intros p q la lb Hp Hq Hla Hlb. split; [eapply view_block; eauto|].
  intros v B vw' r Hna Hnb Hpay HB Hne Hset. destruct (view_block_write s s2 _ _ ct vw M Hv p q la lb v B vw' r) as (Hf & M' & Hv' & X & Y); auto.
  split; [exact Hf|]. exists M'. split; [exact (pv_sp _ _ _ _ _ _ _ Hv')|]. split; [now rewrite (pv_eq _ _ _ _ _ _ _ Hv')|]. auto.
Qed.

(** ** The flat index [s.f[...]] of a full canonical index *)
Theorem f_get_at s c ci e mi : Wf s -> casadi_structure s = Ok c -> At s ci e -> i_get zero s (pidx ci) = Ok (RIdx mi) -> sp_is_dense (dm_sp mi) = true ->
  f_get zero s (pidx ci) = Ok (RFlat (dm_nz mi)) /\ Forall (fun k => k < cs_size c) (dm_nz mi) /\ NoDup (dm_nz mi).
Proof.
  intros Hw Hc Ha Hi Hd. apply (i_get_inv zero s c ci e mi Hw Hc Ha) in Hi.
  destruct (map_ok s c ci mi Hw Hc Hi) as (_ & _ & Hnd & Hb & _). split; [|split; assumption].
  unfold f_get, index_getter. rewrite Hc. cbn [rbind]. rewrite <- (app_nil_r (pidx ci)), (travS_at zero s ci e Ha Hw). simpl. unfold mwrap, flatget, imget. simpl. rewrite Hi. simpl.
  rewrite Hd. reflexivity.
Qed.
Theorem name_sel s c e mi : Wf s -> casadi_structure s = Ok c -> In e (s_entries s) -> e_dims e = [] ->
  i_get zero s [PStr (e_name e)] = Ok (RIdx mi) -> sp_is_dense (dm_sp mi) = true ->
  RowSel s (PStr (e_name e)) (dm_nz mi) /\ Forall (fun k => k < cs_size c) (dm_nz mi) /\ NoDup (dm_nz mi).
Proof.
  intros Hw Hc He Ed Hi Hd.
  assert (Ha : At s [KS (e_name e)] e). { pose proof (At_here s e [] He) as X. rewrite Ed in X. apply X. constructor. }
  destruct (f_get_at s c [KS (e_name e)] e mi Hw Hc Ha Hi Hd) as (A & B & C). split; [constructor; exact A|auto].
Qed.
End P.
