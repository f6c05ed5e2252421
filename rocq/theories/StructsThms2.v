(** Calls s(arg), parseMatrix, structures of expressions (C20, C21, C22, C35). *)
From Coq Require Import Permutation.
From Verif Require Import PyBase IndexModel DMModel StructModel StructSpec PowerModel PowerSpec
  IndexProofs StructProofs LayoutProofs LayoutThms LayoutExamples DMProofs PowerProofs PowerThms SliceProofs PowerThms2 PowerThms3 PowerThms4
  EntryModel EntrySpec EntryProofs StructsModel StructsSpec StructsThms1.
Open Scope nat_scope.

Section P.
Context {T : Type} (zero : T).
Notation rval := (rval T).
Notation pel := (pel T).
Notation pay := (pay T).
Notation env := (env T).
Notation pstate := (pstate T).
Notation Holds := (Holds zero).

Lemma cs_struct_eq s c : Wf s -> casadi_structure s = Ok c -> cs_struct c = s.
Proof. intros Hw Hc. destruct (casadi_structure_ok s Hw) as (c' & Hc' & Hs & _). congruence. Qed.

Lemma keys_names s : Wf s -> Permutation (s_keys s) (map e_name (s_entries s)).
Proof. destruct 1. exact H0. Qed.

(** Every flat position lies under the index of some repeat of some entry. *)
Lemma cover s c k : Wf s -> casadi_structure s = Ok c -> k < cs_size c ->
  exists e idx m, In e (s_entries s) /\ InDims idx (e_dims e) /\ cmap_get (top (e_name e) idx) (cs_map c) = Some m /\ In k (dm_nz m).
Proof.
  intros Hw Hc Hk. assert (Hin : In k (seq 0 (cs_size c))) by (apply in_seq; lia).
  rewrite <- (flat_partition s c Hw Hc) in Hin. apply in_flat_map in Hin as (ci & Hci & Hin).
  apply (proj2 (canonical_leaves s Hw)) in Hci as (e & Hl).
  destruct (cmap_get ci (cs_map c)) as [m|] eqn:Em; [|destruct Hin].
  destruct (Leaf_inv _ _ _ Hl) as (e0 & idx & r & -> & He0 & Hidx & [(Es & -> & ->)|(s' & Es & Hl')]).
  - exists e0, idx, m. rewrite app_nil_r in Em. auto.
  - pose proof (Block_here s e0 idx s' He0 Es Hidx) as Hb. destruct (Block_segment s _ s' Hw Hb) as (l1 & l2 & Hseg).
    pose proof (Block_Wf _ _ _ Hw Hb) as Hw'. assert (Hr : In r (leaves s')) by (apply in_leaves; eauto).
    assert (Hne : leaves s' <> []) by (intros E; rewrite E in Hr; destruct Hr).
    pose proof (map_block s c _ s' l1 l2 Hw Hc Hb Hne Hseg) as Hm. exists e0, idx. eexists. split; [exact He0|]. split; [exact Hidx|].
    split; [exact Hm|]. rewrite (block_complete s c _ s' _ Hw Hc Hb Hm). apply in_flat_map. exists r. rewrite traverse_leaves. split; [exact Hr|].
    change (KS (e_name e0) :: map KI idx ++ r) with ((KS (e_name e0) :: map KI idx) ++ r) in Em. now rewrite Em.
Qed.

Lemma same_keys_ok a b : same_keys a b = true <-> forall k, In k a <-> In k b.
Proof.
  unfold same_keys. rewrite andb_true_iff, !forallb_forall. split.
  - intros [H1 H2] k. split; intros H; apply str_mem_In; auto.
  - intros H. split; intros k Hk; apply str_mem_In; now apply H.
Qed.

Definition start (nan : T) (c : cstruct) : sobj T := SObj c (num_env c) (PState (repeat nan (cs_size c)) [] []).
Lemma start_Obj nan s c : Wf s -> casadi_structure s = Ok c -> Obj s c (so_st (start nan c)).
Proof. intros Hw Hc. split; auto. apply repeat_length. Qed.

(** ** C20 *)
Definition ordered (s : structure) (kv : list (string * pay)) : list (string * pay) :=
  map (fun k => (k, match dict_get k kv with Some v => v | None => PayNone end)) (s_keys s).
Lemma call_dict_run nan s c kv o : Wf s -> casadi_structure s = Ok c -> NoDup (map fst kv) -> call_struct zero nan c (CDict kv) = Ok o ->
  Permutation (ordered s kv) kv /\ (forall k, In k (map fst kv) <-> In k (map e_name (s_entries s))) /\
    so_sets zero (start nan c) (map (fun x => ([PStr (fst x)], snd x)) (ordered s kv)) = Ok o.
Proof.
  intros Hw Hc Hnd H. unfold call_struct in H. rewrite (cs_struct_eq s c Hw Hc) in H.
  destruct (same_keys (map fst kv) (s_keys s)) eqn:Ek; [|discriminate]. simpl in H. rewrite same_keys_ok in Ek.
  assert (Hk : forall k, In k (map fst kv) <-> In k (map e_name (s_entries s))).
  { intros k. rewrite Ek. split; apply Permutation_in; [apply keys_names|apply Permutation_sym, keys_names]; exact Hw. }
  set (val k := match dict_get k kv with Some v => v | None => PayNone end).
  assert (G : forall l, (forall k, In k l -> In k (map fst kv)) ->
     rmapM (fun k => match dict_get k kv with Some v => Ok ([PStr k], v) | None => Err EKey end) l =
     Ok (map (fun x => ([@PStr T (fst x)], snd x)) (map (fun k => (k, val k)) l)) /\ incl (map (fun k => (k, val k)) l) kv).
  { induction l as [|k l IH]; intros Hl; [split; [reflexivity|intros ? []]|]. destruct IH as [IH1 IH2]; [intros j Hj; apply Hl; now right|].
    assert (Hin : In k (map fst kv)) by (apply Hl; now left). apply in_map_iff in Hin as ([k' v] & E & Hin). simpl in E. subst k'.
    pose proof (dict_get_of_In k v kv Hnd Hin) as Hg. simpl. rewrite Hg, IH1. split; [unfold val; rewrite Hg; reflexivity|].
    intros x [<-|Hx]; [unfold val; rewrite Hg; exact Hin|now apply IH2]. }
  destruct (G (s_keys s)) as [G1 G2]; [intros k Hk'; now apply Ek|]. rewrite G1 in H. simpl in H.
  split; [|split; [exact Hk|exact H]].
  assert (Hks : NoDup (s_keys s)) by (eapply Permutation_NoDup; [apply Permutation_sym, keys_names; exact Hw|now apply Wf_NoDup]).
  assert (Hf : map fst (ordered s kv) = s_keys s) by (unfold ordered; rewrite map_map; apply map_id).
  apply NoDup_Permutation; [eapply NoDup_map_inv; rewrite Hf; exact Hks|eapply NoDup_map_inv; exact Hnd|].
  intros [k v]. split; [apply G2|]. intros Hin. apply in_map_iff. exists k. split; [unfold val; now rewrite (dict_get_of_In k v kv Hnd Hin)|].
  apply Ek. change k with (fst (k, v)). now apply in_map.
Qed.

Lemma ordered_ok s c nan kv o : Wf s -> casadi_structure s = Ok c -> (forall e, In e (s_entries s) -> e_symm e = false) ->
  NoDup (map fst kv) -> (forall k v, In (k, v) kv -> PayOk v) -> call_struct zero nan c (CDict kv) = Ok o ->
  forall x, In x (ordered s kv) -> PayOk (snd x) /\ exists e, In e (s_entries s) /\ e_name e = fst x /\ e_symm e = false.
Proof.
  intros Hw Hc Hs Hnd Hok H [n p] Hx. destruct (call_dict_run nan s c kv o Hw Hc Hnd H) as (Hp & Hk & _).
  apply (Permutation_in _ Hp) in Hx. split; [eapply Hok; eauto|].
  assert (Hn : In n (map fst kv)) by (change n with (fst (n, p)); now apply in_map).
  apply Hk, in_map_iff in Hn as (e & En & He). exists e. auto.
Qed.

Theorem call_dict nan s c kv (o : sobj T) :
  Wf s -> casadi_structure s = Ok c -> (forall e, In e (s_entries s) -> e_symm e = false) ->
  NoDup (map fst kv) -> (forall k v, In (k, v) kv -> PayOk v) ->
  call_struct zero nan c (CDict kv) = Ok o ->
  (forall k, In k (map fst kv) <-> In k (map e_name (s_entries s))) /\
  (forall n p e idx, In (n, p) kv -> In e (s_entries s) -> e_name e = n -> InDims idx (e_dims e) ->
    exists q sp R, nest_item p idx = Some q /\ IdxSp e sp /\ so_get zero o (pidx (top n idx)) = Ok (RMat R) /\ Holds q sp R).
Proof.
  intros Hw Hc Hs Hnd Hok H. destruct (call_dict_run nan s c kv o Hw Hc Hnd H) as (Hp & Hk & Hset).
  split; [exact Hk|].
  destruct (names_reads zero s c (so_st (start nan c)) (ordered s kv) o) as (_ & _ & _ & Hr); auto using start_Obj, cs_struct_eq.
  - eapply Permutation_NoDup; [apply Permutation_map, Permutation_sym; exact Hp|exact Hnd].
  - eapply ordered_ok; eauto.
  - intros n p e idx Hn. apply Hr. eapply Permutation_in; [apply Permutation_sym; exact Hp|exact Hn].
Qed.

(** Keys that differ from the names of the structure are rejected. *)
Theorem call_dict_keys nan s c kv :
  Wf s -> casadi_structure s = Ok c -> ~ (forall k, In k (map fst kv) <-> In k (map e_name (s_entries s))) ->
  call_struct zero nan c (CDict kv) = Err EException.
Proof.
  intros Hw Hc Hn. unfold call_struct. rewrite (cs_struct_eq s c Hw Hc).
  destruct (same_keys (map fst kv) (s_keys s)) eqn:Ek; [|reflexivity]. exfalso. apply Hn. rewrite same_keys_ok in Ek.
  intros k. rewrite Ek. split; apply Permutation_in; [apply keys_names|apply Permutation_sym, keys_names]; exact Hw.
Qed.

(** No element keeps the initial fill value. *)
Theorem call_dict_fill nan nan' s c kv (o o' : sobj T) :
  Wf s -> casadi_structure s = Ok c -> (forall e, In e (s_entries s) -> e_symm e = false) ->
  NoDup (map fst kv) -> (forall k v, In (k, v) kv -> PayOk v) ->
  call_struct zero nan c (CDict kv) = Ok o -> call_struct zero nan' c (CDict kv) = Ok o' -> so_cat o = so_cat o'.
Proof.
  intros Hw Hc Hs Hnd Hok H H'. pose proof (cs_struct_eq s c Hw Hc) as Hcs.
  destruct (call_dict_run nan s c kv o Hw Hc Hnd H) as (Hp & Hk & Hset).
  destruct (call_dict_run nan' s c kv o' Hw Hc Hnd H') as (_ & _ & Hset').
  pose proof (ordered_ok s c nan kv o Hw Hc Hs Hnd Hok H) as Hord.
  assert (Hex : forall x, In x (ordered s kv) -> exists e, In e (s_entries s) /\ e_name e = fst x).
  { intros x Hx. destruct (Hord x Hx) as (_ & e & ? & ? & _). eauto. }
  destruct (so_sets_seq zero s c (num_env c) Hcs Hw _ _ o Hex Hset) as (E1 & E2 & Hseq).
  destruct (so_sets_seq zero s c (num_env c) Hcs Hw _ _ o' Hex Hset') as (E1' & E2' & Hseq').
  destruct (all_some zero _ _ _ _ _ Hseq) as [l El].
  pose proof (names_writable s _ l Hw Hord El) as Hwr.
  assert (Ew : wl (names_seq s (ordered s kv)) = wlist l) by (rewrite El; unfold wl, wlist; now rewrite map_map).
  rewrite Ew in Hseq, Hseq'.
  destruct (seq_agree zero s c l _ _ _ (start_Obj nan s c Hw Hc) (start_Obj nan' s c Hw Hc) Hwr Hseq) as (b & Hb & Hag).
  assert (Eb : b = so_st o') by (unfold start in Hb; cbn [so_st] in Hb; congruence). subst b.
  destruct (seq_frame zero s c l _ _ (start_Obj nan s c Hw Hc) Hwr Hseq) as [Ho1 _].
  destruct (seq_frame zero s c l _ _ (start_Obj nan' s c Hw Hc) Hwr Hseq') as [Ho2 _].
  unfold so_cat. apply nth_error_ext. intros k. destruct (Nat.ltb_spec k (cs_size c)) as [Hlt|Hge].
  - apply Hag. right. destruct (cover s c k Hw Hc Hlt) as (e & idx & m & He & Hidx & Hm & Hkm).
    assert (Hne : In (e_name e) (map fst kv)) by (apply Hk; now apply in_map).
    apply in_map_iff in Hne as ([n p] & En & Hnp). simpl in En. subst n.
    assert (Hno : In (e_name e, p) (ordered s kv)) by (eapply Permutation_in; [apply Permutation_sym; exact Hp|exact Hnp]).
    destruct (names_reads zero s c (so_st (start nan c)) (ordered s kv) o) as (_ & _ & _ & Hr); auto using start_Obj.
    { eapply Permutation_NoDup; [apply Permutation_map, Permutation_sym; exact Hp|exact Hnd]. }
    destruct (Hr (e_name e) p e idx Hno He eq_refl Hidx) as (q & _ & _ & Hq & _).
    exists (top (e_name e) idx, q), m. split; [|auto]. apply (names_in s _ l El). unfold names_seq. apply in_flat_map.
    exists (e_name e, p). split; [exact Hno|]. cbn [fst snd]. rewrite (s_dict_get s e (Wf_NoDup _ Hw) He). now apply (flatW_in (e_name e) (e_dims e) []).
  - rewrite (proj2 (nth_error_None _ _)) by (rewrite (ob_len _ _ _ Ho1); exact Hge).
    rewrite (proj2 (nth_error_None _ _)) by (rewrite (ob_len _ _ _ Ho2); exact Hge). reflexivity.
Qed.

(** ** C21 *)
Lemma map_fixed {A B} (x : B) (l : list A) : map (fun _ => x) l = repeat x (length l).
Proof. induction l; simpl; congruence. Qed.
Lemma column_nth (d : dm T) i : i < dm_nr d -> nth_error (column zero d) i = Some (dm_val zero d (i, 0)).
Proof. intros Hi. unfold column. rewrite nth_error_map_. rewrite (nth_error_nth' _ 0) by (rewrite seq_length; exact Hi). now rewrite seq_nth. Qed.
Lemma column_length (d : dm T) : length (column zero d) = dm_nr d.
Proof. unfold column. now rewrite map_length, seq_length. Qed.

Theorem call_vector nan s c (d : dm T) :
  Wf s -> casadi_structure s = Ok c -> dm_shape d = (cs_size c, 1) ->
  exists o, call_struct zero nan c (CMat d) = Ok o /\ length (so_cat o) = cs_size c /\
    (forall i, i < cs_size c -> nth_error (so_cat o) i = Some (dm_val zero d (i, 0))) /\
    (forall ci e m, At s ci e -> e_symm e = false -> i_get zero s (pidx ci) = Ok (RIdx m) ->
      so_get zero o (pidx ci) = Ok (RMat (DM (dm_sp m) (map (fun k => dm_val zero d (k, 0)) (dm_nz m))))).
Proof.
  intros Hw Hc Hsh. unfold dm_shape in Hsh. injection Hsh as Hr Hcc.
  assert (E : call_struct zero nan c (CMat d) = Ok (SObj c (num_env c) (PState (column zero d) [] []))).
  { unfold call_struct, numeric_struct. rewrite Hr, Hcc.
    replace ((cs_size c =? 1) && (1 =? 1) && negb (cs_size c =? 1)) with false by (destruct (cs_size c =? 1); reflexivity).
    rewrite Hr, Hcc, Nat.eqb_refl. reflexivity. }
  eexists. split; [exact E|]. cbn [so_cat so_st ps_master]. split; [now rewrite column_length|]. split.
  - intros i Hi. apply column_nth. lia.
  - intros ci e m Ha Hs Hi. unfold so_get. cbn [so_c so_env so_st]. rewrite (cs_struct_eq s c Hw Hc).
    pose proof (i_get_inv zero s c ci e m Hw Hc Ha Hi) as Hm.
    rewrite (getitem_at zero s c (PState (column zero d) [] []) ci e m); auto.
    + unfold vals, dm_map. do 3 f_equal. apply map_ext_in. intros k Hk. cbn [ps_master].
      destruct (map_ok s c ci m Hw Hc Hm) as (_ & _ & _ & Hb & _). rewrite Forall_forall in Hb. specialize (Hb k Hk).
      apply nth_error_nth. apply column_nth. lia.
    + split; auto. simpl. rewrite column_length. exact Hr.
Qed.

Theorem call_scalar nan s c (d : dm T) :
  Wf s -> casadi_structure s = Ok c -> dm_shape d = (1, 1) -> DmOk d ->
  exists o, call_struct zero nan c (CMat d) = Ok o /\ so_cat o = repeat (dm_val zero d (0, 0)) (cs_size c).
Proof.
  intros Hw Hc Hsh [[Hso Hb] Hl]. unfold dm_shape in Hsh. injection Hsh as Hr Hcc.
  destruct (Nat.eq_dec (cs_size c) 1) as [E1|E1].
  - destruct (call_vector nan s c d Hw Hc) as (o & Ho & Hlen & Hn & _); [unfold dm_shape; congruence|]. exists o. split; [exact Ho|].
    rewrite E1 in *. destruct (so_cat o) as [|x [|y l]]; try discriminate. specialize (Hn 0 (Nat.lt_0_1)). simpl in Hn. injection Hn as ->. reflexivity.
  - unfold call_struct. rewrite Hr, Hcc. simpl. destruct (Nat.eqb_spec (cs_size c) 1); [contradiction|]. simpl.
    assert (Hd : dm_nz d = [] /\ dm_val zero d (0,0) = zero \/ exists a, dm_nz d = [a] /\ dm_val zero d (0,0) = a).
    { unfold dm_val, dm_at. destruct d as [[nr nc pat] nz]. unfold dm_nr, dm_nc, sp_nnz in *. cbn [dm_sp sp_nr sp_nc sp_pat dm_nz] in *. subst.
      destruct pat as [|p pat].
      - left. destruct nz; [auto|discriminate].
      - right. assert (p = (0, 0)). { inversion Hb as [|? ? Hp _]; subst. destruct p. simpl in Hp. f_equal; lia. } subst p.
        destruct pat as [|q pat].
        + destruct nz as [|a [|]]; try discriminate. exists a. auto.
        + exfalso. inversion Hb as [|? ? _ Hb2]; subst. inversion Hb2 as [|? ? Hq _]; subst. assert (q = (0,0)) by (destruct q; simpl in Hq; f_equal; lia). subst q.
          inversion Hso as [|? ? _ Hf]; subst. inversion Hf as [|? ? Hlt _]; subst. unfold pos_lt in Hlt. simpl in Hlt. lia. }
    unfold fill_scalar, numeric_struct. destruct Hd as [[En Ev]|(a & En & Ev)]; rewrite En, Ev.
    + unfold dm_nr, dm_nc. cbn [dm_sp sp_nr sp_nc]. rewrite Nat.eqb_refl. simpl. eexists. split; [reflexivity|].
      unfold so_cat, column, dm_nr. cbn [so_st ps_master dm_sp sp_nr]. etransitivity; [apply map_ext with (g := fun _ => zero); reflexivity|]. rewrite map_fixed, seq_length. reflexivity.
    + unfold dm_nr, dm_nc. cbn [dm_sp sp_nr sp_nc sp_dense]. rewrite Nat.eqb_refl. simpl. eexists. split; [reflexivity|].
      unfold so_cat. cbn [so_st ps_master]. apply nth_error_ext. intros i. destruct (Nat.ltb_spec i (cs_size c)) as [Hi|Hi].
      * rewrite column_nth by exact Hi. rewrite nth_error_repeat by exact Hi. f_equal. unfold dm_val, dm_at. cbn [dm_sp sp_pat dm_nz sp_dense].
        rewrite Nat.mul_1_r.
        replace (repeat a (cs_size c)) with (map (fun _ : nat * nat => a) (all_pos (cs_size c) 1)).
        { rewrite pos_assoc_fun. replace (pos_mem (i, 0) (all_pos (cs_size c) 1)) with true; [reflexivity|]. symmetry. apply pos_mem_In.
          unfold all_pos. apply in_flat_map. exists 0. split; [now left|]. apply in_map_iff. exists i. split; [reflexivity|]. apply in_seq. lia. }
        { rewrite map_fixed, all_pos_length, Nat.mul_1_r. reflexivity. }
      * rewrite (proj2 (nth_error_None _ _)); [|rewrite column_length; exact Hi].
        rewrite (proj2 (nth_error_None _ _)); [reflexivity|]. rewrite repeat_length. exact Hi.
Qed.

(** A structure of size 0 accepts scalars and all matrices without rows. *)
Theorem call_empty nan c (d : dm T) : cs_size c = 0 ->
  (dm_nr d = 0 \/ dm_shape d = (1, 1) -> exists o, call_struct zero nan c (CMat d) = Ok o /\ so_cat o = []) /\
  (dm_nr d <> 0 -> dm_shape d <> (1, 1) -> call_struct zero nan c (CMat d) = Err EException).
Proof.
  intros Hc. unfold call_struct, numeric_struct. rewrite Hc. cbn [Nat.eqb negb]. rewrite andb_true_r. split.
  - intros H. destruct ((dm_nr d =? 1) && (dm_nc d =? 1)) eqn:E.
    + assert (F : dm_nr (fill_scalar 0 1 d) = 0) by (unfold fill_scalar; destruct (dm_nz d); reflexivity). rewrite F. cbn [Nat.eqb negb Nat.ltb Nat.leb]. rewrite andb_false_r.
      eexists. split; [reflexivity|]. unfold so_cat, column. cbn [so_st ps_master]. now rewrite F.
    + destruct H as [H|H]; [|injection H as H1 H2; rewrite H1, H2 in E; discriminate]. rewrite H. cbn [Nat.eqb negb Nat.ltb Nat.leb]. rewrite andb_false_r.
      eexists. split; [reflexivity|]. unfold so_cat, column. cbn [so_st ps_master]. now rewrite H.
  - intros H1 H2. destruct ((dm_nr d =? 1) && (dm_nc d =? 1)) eqn:E.
    + exfalso. apply H2. apply andb_true_iff in E as [E1 E2]. apply Nat.eqb_eq in E1, E2. unfold dm_shape. now rewrite E1, E2.
    + replace (dm_nr d =? 0) with false by (symmetry; now apply Nat.eqb_neq). reflexivity.
Qed.

Theorem call_bad_shape nan c (d : dm T) :
  0 < cs_size c -> dm_shape d <> (1, 1) -> dm_shape d <> (cs_size c, 1) -> call_struct zero nan c (CMat d) = Err EException.
Proof.
  intros Hpos H1 H2. unfold call_struct. unfold dm_shape in *.
  destruct ((dm_nr d =? 1) && (dm_nc d =? 1)) eqn:E; [apply andb_true_iff in E as [E E']; apply Nat.eqb_eq in E, E'; congruence|]. simpl.
  destruct (Nat.eqb_spec (dm_nr d) (cs_size c)); simpl; [|reflexivity].
  destruct (Nat.eqb_spec (dm_nc d) 1); simpl; [exfalso; congruence|]. destruct (Nat.ltb_spec 0 (dm_nr d)); [reflexivity|lia].
Qed.
End P.
