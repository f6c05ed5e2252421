(** parseMatrix and structures of expressions (C22, C35). *)
From Coq Require Import Permutation.
From Verif Require Import PyBase IndexModel DMModel StructModel StructSpec PowerModel PowerSpec
  IndexProofs StructProofs LayoutProofs LayoutThms LayoutExamples DMProofs PowerProofs PowerThms SliceProofs PowerThms2 PowerThms3 PowerThms4
  EntryModel EntrySpec EntryProofs StructsModel StructsSpec StructsThms1 StructsThms2.
Open Scope nat_scope.

Section P.
Context {T : Type} (zero : T).
Notation rval := (rval T).
Notation pel := (pel T).
Notation pay := (pay T).
Notation env := (env T).
Notation pstate := (pstate T).
Notation Holds := (Holds zero).

(** ** C22 *)
Lemma mats_RMat (l : list (dm T)) : mats (map RMat l) = Some l.
Proof. induction l as [|m l IH]; simpl; [reflexivity|]. now rewrite IH. Qed.

Lemma pos_assoc_app {A} p ps ps' : forall (vs vs' : list A), length vs = length ps ->
  pos_assoc p (ps ++ ps') (vs ++ vs') = match pos_assoc p ps vs with Some x => Some x | None => pos_assoc p ps' vs' end.
Proof.
  induction ps as [|q ps IH]; intros [|v vs] vs' Hl; try discriminate; [reflexivity|]. simpl. destruct (pos_eqb p q); [reflexivity|]. apply IH. simpl in Hl. lia.
Qed.
Lemma pos_assoc_shift {A} w a j ps : forall (vs : list A), w <= j ->
  pos_assoc (a, j) (map (fun p => (fst p, w + snd p)) ps) vs = pos_assoc (a, j - w) ps vs.
Proof.
  intros vs Hj. revert vs. induction ps as [|[x y] ps IH]; intros [|v vs]; try reflexivity. simpl. rewrite IH.
  unfold pos_eqb. simpl. replace (j - w =? y) with (j =? w + y); [reflexivity|].
  destruct (Nat.eqb_spec j (w + y)), (Nat.eqb_spec (j - w) y); try reflexivity; lia.
Qed.

(** Matrices of the same shape side by side. *)
Definition proper (r w : nat) (m : dm T) : Prop :=
  dm_nr m = r /\ dm_nc m = w /\ length (dm_nz m) = sp_nnz (dm_sp m) /\ Forall (fun p => snd p < w) (sp_pat (dm_sp m)).
Lemma horz2_at r w w' (a b : dm T) x y : proper r w a -> proper r w' b ->
  proper r (w + w') (horzcat2 a b) /\
  dm_at (horzcat2 a b) (x, y) = if y <? w then dm_at a (x, y) else dm_at b (x, y - w).
Proof.
  intros (Ha1 & Ha2 & Ha3 & Ha4) (Hb1 & Hb2 & Hb3 & Hb4). split.
  - unfold horzcat2, proper, dm_nr, dm_nc. cbn [dm_sp sp_nr sp_nc dm_nz sp_pat]. fold (dm_nr a) (dm_nc a) (dm_nc b). rewrite Ha1, Ha2, Hb2.
    split; [reflexivity|]. split; [reflexivity|]. split.
    + unfold sp_nnz in *. cbn [sp_pat]. rewrite !app_length, map_length. lia.
    + apply Forall_app. split; [eapply Forall_impl; [|exact Ha4]; simpl; lia|]. rewrite Forall_map. eapply Forall_impl; [|exact Hb4]. simpl. lia.
  - unfold dm_at, horzcat2. cbn [dm_sp sp_pat dm_nz]. rewrite pos_assoc_app by exact Ha3. rewrite Ha2.
    destruct (Nat.ltb_spec y w) as [Hy|Hy].
    + destruct (pos_assoc (x, y) (sp_pat (dm_sp a)) (dm_nz a)) eqn:E; [reflexivity|].
      apply pos_assoc_None. intros Hin. apply in_map_iff in Hin as ([p q] & [= _ Hq] & _). lia.
    + rewrite pos_assoc_None; [now apply pos_assoc_shift|]. intros Hin. rewrite Forall_forall in Ha4. specialize (Ha4 _ Hin). simpl in Ha4. lia.
Qed.
Lemma horz_fold r w : forall (l : list (dm T)) k (a : dm T), proper r (k * w) a -> Forall (proper r w) l ->
  proper r ((k + length l) * w) (fold_left horzcat2 l a) /\
  forall x j y, y < w -> dm_at (fold_left horzcat2 l a) (x, j * w + y) =
     if j <? k then dm_at a (x, j * w + y) else match nth_error l (j - k) with Some m => dm_at m (x, y) | None => None end.
Proof.
  induction l as [|m l IH]; intros k a Ha Hl.
  - simpl. rewrite Nat.add_0_r. split; [exact Ha|]. intros x j y Hy. destruct (Nat.ltb_spec j k) as [Hj|Hj]; [reflexivity|].
    destruct Ha as (_ & _ & _ & Ha). rewrite Forall_forall in Ha. 
    replace (nth_error [] (j - k)) with (@None (dm T)) by (destruct (j - k); reflexivity).
    apply pos_assoc_None. intros Hin. apply Ha in Hin. simpl in Hin. nia.
  - inversion Hl as [|? ? Hm Hl']; subst. cbn [fold_left].
    assert (Ha' : proper r (S k * w) (horzcat2 a m)).
    { destruct (horz2_at r (k * w) w a m 0 0 Ha Hm) as [H _]. now replace (S k * w) with (k * w + w) by (simpl; lia). }
    destruct (IH (S k) (horzcat2 a m) Ha' Hl') as [IH1 IH2]. split.
    + cbn [length]. now replace (k + S (length l)) with (S k + length l) by lia.
    + intros x j y Hy. rewrite IH2 by exact Hy. destruct (horz2_at r (k * w) w a m x (j * w + y) Ha Hm) as [_ ->].
      destruct (Nat.ltb_spec j (S k)) as [H1|H1].
      * destruct (Nat.ltb_spec j k) as [H2|H2].
        -- destruct (Nat.ltb_spec (j * w + y) (k * w)); [reflexivity|nia].
        -- assert (j = k) by lia. subst j. destruct (Nat.ltb_spec (k * w + y) (k * w)); [lia|].
           replace (k * w + y - k * w) with y by lia. rewrite Nat.sub_diag. reflexivity.
      * destruct (Nat.ltb_spec j k); [lia|]. replace (j - k) with (S (j - S k)) by lia. reflexivity.
Qed.

Theorem parse_ok nan s c nc (f : nat -> nat -> T) :
  Wf s -> casadi_structure s = Ok c -> 0 < nc ->
  (forall e, In e (s_entries s) -> e_dims e = [] /\ e_symm e = false /\ exists m, i_get zero s [PStr (e_name e)] = Ok (@RIdx T m)) ->
  exists r, parse_matrix zero nan c (A2 (cs_size c) nc f) = Ok r /\ map fst r = s_keys s /\
    forall k M m, In (k, M) r -> i_get zero s [PStr k] = Ok (@RIdx T m) ->
      dm_nr M = dm_nr m /\ dm_nc M = nc * dm_nc m /\
      forall a b j, b < dm_nc m -> j < nc ->
        dm_at M (a, j * dm_nc m + b) = match dm_at m (a, b) with Some p => Some (f p j) | None => None end.
Proof.
  intros Hw Hc Hnc He. unfold parse_matrix. cbn [atleast_2d]. rewrite (cs_struct_eq s c Hw Hc).
  set (d j := dm_col (map (fun i => f i j) (seq 0 (cs_size c)))).
  assert (Hd : forall j, dm_shape (d j) = (cs_size c, 1)).
  { intros j. unfold d, dm_shape, dm_col, dm_nr, dm_nc. simpl. now rewrite map_length, seq_length. }
  assert (Hdv : forall j k, k < cs_size c -> dm_val zero (d j) (k, 0) = f k j).
  { intros j k Hk. unfold dm_val, d, dm_col, dm_at. cbn [dm_sp dm_nz sp_dense sp_pat]. rewrite map_length, seq_length.
    assert (Ep : all_pos (cs_size c) 1 = map (fun i => (i, 0)) (seq 0 (cs_size c))) by (unfold all_pos; simpl; now rewrite app_nil_r).
    replace (map (fun i => f i j) (seq 0 (cs_size c))) with (map (fun p => f (fst p) j) (all_pos (cs_size c) 1)) by (rewrite Ep, map_map; reflexivity).
    rewrite pos_assoc_fun. replace (pos_mem _ _) with true; [reflexivity|]. symmetry. apply pos_mem_In. rewrite Ep. apply in_map_iff. exists k. split; [reflexivity|]. apply in_seq. lia. }
  assert (Hkey : forall k, In k (s_keys s) -> exists e m, At s [KS k] e /\ e_symm e = false /\ i_get zero s [PStr k] = Ok (@RIdx T m)).
  { intros k Hk. apply (Permutation_in _ (keys_names s Hw)) in Hk. apply in_map_iff in Hk as (e & <- & Hin). destruct (He e Hin) as (Hdm & Hs & m & Hm).
    exists e, m. split; [|auto]. apply (At_here s e []); [exact Hin|]. rewrite Hdm. constructor. }
  set (colv k j := match i_get zero s [PStr k] with
                   | Ok (RIdx m) => DM (dm_sp m) (map (fun p => f p j) (dm_nz m)) | _ => DM (sp_dense 0 0) [] end : dm T).
  assert (Hcol : forall k j, In k (s_keys s) -> (let* o := call_struct zero nan c (CMat (d j)) in so_get zero o [PStr k]) = Ok (RMat (colv k j))).
  { intros k j Hk. destruct (Hkey k Hk) as (e & m & Ha & Hs & Hm). destruct (call_vector zero nan s c (d j) Hw Hc (Hd j)) as (o & Ho & _ & _ & Hr).
    rewrite Ho. simpl. change [PStr k] with (@pidx T [KS k]). rewrite (Hr [KS k] e m Ha Hs Hm). unfold colv. rewrite Hm. do 3 f_equal.
    apply map_ext_in. intros p Hp. apply Hdv. pose proof (i_get_inv zero s c [KS k] e m Hw Hc Ha Hm) as Hg.
    destruct (map_ok s c _ m Hw Hc Hg) as (_ & _ & _ & Hb & _). rewrite Forall_forall in Hb. auto. }
  assert (Hprop : forall k j m, In k (s_keys s) -> i_get zero s [PStr k] = Ok (@RIdx T m) -> proper (dm_nr m) (dm_nc m) (colv k j)).
  { intros k j m Hk Hm. destruct (Hkey k Hk) as (e & m' & Ha & Hs & Hm'). assert (m' = m) by congruence. subst m'. 
    pose proof (i_get_inv zero s c [KS k] e m Hw Hc Ha Hm) as Hg. destruct (map_ok s c _ m Hw Hc Hg) as (_ & [[_ Hsp] Hl] & _).
    unfold colv. rewrite Hm. unfold proper, dm_nr, dm_nc. cbn [dm_sp dm_nz]. rewrite map_length. repeat split; auto.
    eapply Forall_impl; [|exact Hsp]. simpl. tauto. }
  set (out k := fold_left horzcat2 (map (colv k) (seq 1 (nc - 1))) (colv k 0)).
  assert (Hout : forall l, incl l (s_keys s) ->
     rmapM (fun k => let* cols := rmapM (fun j => let* o := call_struct zero nan c (CMat (d j)) in so_get zero o [PStr k]) (seq 0 nc) in
                     let* m := horzcat cols in Ok (k, m)) l = Ok (map (fun k => (k, out k)) l)).
  { induction l as [|k l IH]; intros Hl; [reflexivity|]. cbn [rmapM map].
    assert (Hk : In k (s_keys s)) by (apply Hl; now left).
    assert (E : rmapM (fun j => let* o := call_struct zero nan c (CMat (d j)) in so_get zero o [PStr k]) (seq 0 nc) = Ok (map RMat (map (colv k) (seq 0 nc)))).
    { apply rmapM_Ok. rewrite map_map. clear -Hcol Hk. generalize (seq 0 nc). induction l as [|j l IH]; constructor; [now apply Hcol|exact IH]. }
    assert (Eh : horzcat (map RMat (map (colv k) (seq 0 nc))) = Ok (out k)).
    { unfold horzcat. rewrite mats_RMat. unfold out. clear -Hnc Hprop Hkey Hk. destruct nc as [|nc']; [lia|]. cbn [seq map].
      destruct (Hkey k Hk) as (e & m & Ha & Hs & Hm).
      replace (forallb _ _) with true.
      2:{ symmetry. apply forallb_forall. intros x Hx. apply in_map_iff in Hx as (j & <- & _). apply Nat.eqb_eq.
          destruct (Hprop k j m Hk Hm) as [-> _]. destruct (Hprop k 0 m Hk Hm) as [-> _]. reflexivity. }
      do 4 f_equal. lia. }
    rewrite E. cbn [rbind]. rewrite Eh. cbn [rbind]. rewrite IH by (intros x Hx; apply Hl; now right). reflexivity. }
  eexists. split; [apply Hout; apply incl_refl|]. split; [rewrite map_map; apply map_id|].
  intros k M m Hin Hm. apply in_map_iff in Hin as (k' & [= <- <-] & Hk).
  destruct (horz_fold (dm_nr m) (dm_nc m) (map (colv k') (seq 1 (nc - 1))) 1 (colv k' 0)) as [Hpr Hat].
  { rewrite Nat.mul_1_l. now apply Hprop. }
  { apply Forall_forall. intros x Hx. apply in_map_iff in Hx as (j & <- & _). now apply Hprop. }
  fold (out k') in Hpr, Hat. destruct Hpr as (H1 & H2 & _). rewrite map_length, seq_length in H2. replace (1 + (nc - 1)) with nc in H2 by lia.
  split; [exact H1|]. split; [exact H2|]. intros a b j Hb Hj. rewrite Hat by exact Hb.
  assert (Ec : forall j, dm_at (colv k' j) (a, b) = match dm_at m (a, b) with Some p => Some (f p j) | None => None end).
  { intros j0. unfold colv. rewrite Hm. unfold dm_at. cbn [dm_sp dm_nz]. rewrite pos_assoc_map. destruct (pos_assoc _ _ _); reflexivity. }
  destruct (Nat.ltb_spec j 1) as [H0|H0].
  - assert (j = 0) by lia. subst j. simpl. apply Ec.
  - rewrite nth_error_map_. rewrite (nth_error_nth' _ 0) by (rewrite seq_length; lia). rewrite seq_nth by lia. replace (1 + (j - 1)) with j by lia. apply Ec.
Qed.

(** A wrong number of rows is rejected, unless there is a single row. *)
Theorem parse_bad_rows nan s c nr nc (f : nat -> nat -> T) :
  Wf s -> casadi_structure s = Ok c -> s_entries s <> [] -> 0 < nc -> nr <> cs_size c -> nr <> 1 ->
  exists x, parse_matrix zero nan c (A2 nr nc f) = Err x.
Proof.
  intros Hw Hc Hne Hnc Hnr H1. unfold parse_matrix. cbn [atleast_2d]. rewrite (cs_struct_eq s c Hw Hc).
  destruct (s_keys s) as [|k ks] eqn:Ek.
  { exfalso. pose proof (keys_names s Hw) as Hp. rewrite Ek in Hp. apply Permutation_nil in Hp. destruct (s_entries s); [congruence|discriminate]. }
  destruct nc as [|nc']; [lia|]. cbn [rmapM seq]. 
  assert (E : call_struct zero nan c (CMat (dm_col (map (fun i => f i 0) (seq 0 nr)))) = Err EException).
  { unfold call_struct, numeric_struct, dm_col, dm_nr, dm_nc. cbn [dm_sp sp_nr sp_nc sp_dense]. rewrite map_length, seq_length.
    destruct (Nat.eqb_spec nr 1); [contradiction|]. simpl. rewrite ?map_length, ?seq_length. destruct (Nat.eqb_spec nr (cs_size c)); [contradiction|]. reflexivity. }
  rewrite E. simpl. eauto.
Qed.

(** ** C35 *)
Lemma reach_item (v : kval T) path x : Reach v path x -> nest_item (pay_of_val v) path = Some (pay_of_val x).
Proof.
  induction 1 as [v|l i v path x Hn Hr IH]; [reflexivity|]. simpl. rewrite Nat2Z.id, nth_error_map_, Hn. exact IH.
Qed.
Lemma regular_in (v : kval T) dims : Regular v dims -> forall path x sp, Reach v path x -> MatrixOf x sp -> InDims path dims.
Proof.
  induction 1 as [v sp0 Hv|l dims Hall IH]; intros path x sp Hr Hx.
  - inversion Hr; subst; [constructor|]. inversion Hv.
  - inversion Hr as [|l0 i v path' x0 Hn Hr']; subst.
    + inversion Hx.
    + constructor; [|eapply IH; eauto; eapply nth_error_In; eauto]. apply nth_error_Some_lt_ in Hn. lia.
Qed.
Lemma regular_first (v : kval T) dims : Regular v dims -> ~ In 0%Z dims -> exists p, FirstOf v dims p.
Proof.
  induction 1 as [v sp Hv|l dims Hall IH]; intros Hz; [exists v; econstructor; eauto|].
  destruct l as [|x l]; [exfalso; apply Hz; now left|]. destruct (IH x (or_introl eq_refl)) as [p Hp]; [intros H; apply Hz; now right|].
  exists p. now apply FO_list.
Qed.

(** A regular nested list gives the entry its dimensions. *)
Theorem expr_dims name (v : kval T) ce dims : entry_init name [("expr"%string, v)] = Ok ce -> Regular v dims -> ~ In 0%Z dims ->
  e_dims (ce_entry ce) = dims.
Proof.
  intros H Hr Hz. assert (Hnd : NoDup (map fst [("expr"%string, v)])) by (repeat constructor; simpl; tauto).
  destruct (entry_result name _ ce Hnd H) as (_ & Hd & _).
  destruct (regular_first v dims Hr Hz) as [p Hp].
  assert (Hv : Valid [("expr"%string, v)]) by (apply (entry_accepts_iff name); eauto).
  destruct (doc_unique _ Hnd Hv) as (Hu & _). apply Hu; [exact Hd|]. eapply DR_expr; [left; reflexivity|exact Hp].
Qed.

Definition expr_kv (el : elist T) : list (string * pay) :=
  flat_map (fun ce => match ce_expr ce with Some v => [(ce_name ce, pay_of_val v)] | None => [] end) (el_entries el).
Lemma expr_sets_kv (el : elist T) : expr_sets el = map (fun x => ([PStr (fst x)], snd x)) (expr_kv el).
Proof.
  unfold expr_sets, expr_kv. induction (el_entries el) as [|ce l IH]; [reflexivity|]. simpl. rewrite map_app, <- IH. destruct (ce_expr ce); reflexivity.
Qed.

Theorem expr_struct_reads nan (l : list (item_arg T)) (o : sobj T) :
  items_ok l ->
  (forall ce, In ce (arg_entries l) -> e_symm (ce_entry ce) = false) ->
  (forall ce v, In ce (arg_entries l) -> ce_expr ce = Some v -> PayOk (pay_of_val v)) ->
  struct_SX zero nan l = Ok o ->
  forall ce v path x sp, In ce (arg_entries l) -> ce_expr ce = Some v -> Regular v (e_dims (ce_entry ce)) ->
    Reach v path x -> MatrixOf x sp ->
    exists sp' R, IdxSp (ce_entry ce) sp' /\ so_get zero o (pidx (top (ce_name ce) path)) = Ok (RMat R) /\ Holds (pay_of_val x) sp' R.
Proof.
  intros Hit Hsy Hok H ce v path x sp Hce Hv Hreg Hreach Hx. unfold struct_SX in H.
  destruct (struct_ l None) as [[el c]|] eqn:Es; [|discriminate]. cbn [rbind] in H.
  destruct (forallb has_expr (el_entries el)) eqn:Ea; [|discriminate]. cbn [negb numeric_struct rbind] in H.
  destruct (proj2 (struct_builds l Hit) el c Es) as (Hw & Hc & Hent & Hkeys & _).
  assert (Hel : el_entries el = arg_entries l).
  { unfold struct_ in Es. destruct (entry_list l None) as [el'|] eqn:Ee; [|discriminate]. cbn [rbind] in Es.
    destruct (entry_list_result l None el' Ee) as (E1 & _). destruct (structure_init _ _) as [s0|]; [|discriminate]. cbn [rbind] in Es.
    destruct (casadi_structure s0); [|discriminate]. cbn [rbind] in Es. congruence. }
  rewrite expr_sets_kv in H. set (s := cs_struct c) in *.
  assert (Hnames : map fst (expr_kv el) = map ce_name (arg_entries l)).
  { unfold expr_kv. rewrite Hel in *. clear -Ea. induction (arg_entries l) as [|ce l' IH]; [reflexivity|]. simpl in Ea. apply andb_true_iff in Ea as [E1 E2].
    unfold has_expr in E1. simpl. destruct (ce_expr ce); [|discriminate]. simpl. f_equal. auto. }
  assert (Hkv : forall y, In y (expr_kv el) -> exists ce v, In ce (arg_entries l) /\ ce_expr ce = Some v /\ y = (ce_name ce, pay_of_val v)).
  { intros y Hy. unfold expr_kv in Hy. apply in_flat_map in Hy as (ce0 & H0 & Hy). rewrite Hel in H0. destruct (ce_expr ce0) as [v0|] eqn:E0; [|destruct Hy].
    destruct Hy as [<-|[]]. eauto. }
  assert (Hentry : forall ce, In ce (arg_entries l) -> In (ce_entry ce) (s_entries s)) by (intros; rewrite Hent; now apply in_map).
  destruct (names_reads zero s c (so_st (start nan c)) (expr_kv el) o) as (_ & _ & _ & Hr).
  - now apply start_Obj.
  - reflexivity.
  - rewrite Hnames. pose proof (Wf_NoDup _ Hw) as Hn. rewrite Hent, map_map in Hn. exact Hn.
  - intros y Hy. destruct (Hkv y Hy) as (ce0 & v0 & H0 & Hv0 & ->). cbn [fst snd]. split; [eapply Hok; eauto|]. exists (ce_entry ce0). auto.
  - exact H.
  - destruct (Hr (ce_name ce) (pay_of_val v) (ce_entry ce) path) as (q & sp' & R & Hq & Hsp & HR & HH); auto.
    + unfold expr_kv. apply in_flat_map. exists ce. rewrite Hel. split; [exact Hce|]. rewrite Hv. now left.
    + eapply regular_in; eauto.
    + rewrite (reach_item v path x Hreach) in Hq. injection Hq as <-. eauto.
Qed.
End P.
