(** Structures with one plain matrix per name: [struct_MX([entry(k, expr=m), ...])] and
    the call with a dict succeed, and what the results hold. *)
From Coq Require Import Permutation.
From Verif Require Import PyBase IndexModel DMModel StructModel StructSpec PowerModel PowerSpec
  IndexProofs StructProofs LayoutProofs LayoutThms LayoutExamples DMProofs PowerProofs PowerThms SliceProofs PowerThms2 PowerThms3 PowerThms4
  EntryModel EntrySpec EntryProofs StructsModel StructsSpec StructsThms1 StructsThms2 StructsThms3 StructsThms4 StructsThms6.
Open Scope nat_scope.

Definition plain_entry (k : string) (sp : spy) : entry := mkEntry k [] None sp false None None.

Section P.
Context {T : Type} (zero : T).
Notation pay := (pay T).
Notation pel := (pel T).

Definition plain_item (x : string * (kval T * dm T)) : item_arg T :=
  IOne (AEntry (CEntry (plain_entry (fst x) (dm_sp (snd (snd x)))) None (Some (fst (snd x))))).
Definition plain_ok (x : string * (kval T * dm T)) : Prop :=
  DmOk (snd (snd x)) /\ pay_of_val (fst (snd x)) = PayMat (snd (snd x)).

Lemma plain_entries l : arg_entries (map plain_item l) =
  map (fun x => CEntry (plain_entry (fst x) (dm_sp (snd (snd x)))) None (Some (fst (snd x)))) l.
Proof. unfold arg_entries. induction l as [|x l IH]; [reflexivity|]. simpl. now rewrite IH. Qed.
Lemma plain_names l : arg_names (map plain_item l) = map fst l.
Proof. unfold arg_names. induction l as [|x l IH]; [reflexivity|]. simpl. now rewrite IH. Qed.

Lemma plain_map s c k sp : Wf s -> casadi_structure s = Ok c -> In (plain_entry k sp) (s_entries s) ->
  exists m, cmap_get (top k []) (cs_map c) = Some m /\ dm_sp m = sp /\ DmOk m /\ Forall (fun i => i < cs_size c) (dm_nz m).
Proof.
  intros Hw Hc He. pose proof (Leaf_prim s _ [] He eq_refl (Forall2_nil _)) as Hl.
  destruct (map_get_leaf s c _ _ Hw Hc Hl) as (m & Hm & Hsp). exists m. split; [exact Hm|].
  destruct (map_ok s c _ m Hw Hc Hm) as (_ & Hok & _ & Hb & _). split; [|now split].
  exact Hsp.
Qed.

Lemma plain_inject s c k m st : Wf s -> casadi_structure s = Ok c -> In (plain_entry k (dm_sp m)) (s_entries s) ->
  exists st', veccat_set zero (SObj c (venv c) st) [PStr k] (PayMat m) = (SObj c (venv c) st', Ok RNone).
Proof.
  intros Hw Hc He. pose proof (cs_struct_eq s c Hw Hc) as Es. unfold veccat_set. cbn [so_c so_env so_st]. rewrite Es.
  change [@PStr T k] with (@pidx T (top k []) ++ []).
  rewrite (travS_at zero s (top k []) _ (At_here s _ [] He (Forall2_nil _)) Hw).
  destruct (plain_map s c k _ Hw Hc He) as (mi & Hm & Hsp & _).
  assert (Hin : In (top k []) (tops s)). { apply in_tops; [exact Hw|]. exists (plain_entry k (dm_sp m)), []. repeat split; auto. constructor. }
  apply In_nth_error in Hin as [i Hi]. apply (mapping_get (T := T) s c (top k []) i Hw Es) in Hi.
  assert (E : inject (venv (T := T) c) (PayMat m) (top k []) None st =
     (PState (ps_master st) (ps_mirror st) (set_nth i (Some m) (ps_storage st)), Ok RNone)).
  { unfold inject. rewrite Hi. change (en_map (venv (T := T) c)) with (cs_map c). rewrite Hm, Hsp, spy_eqb_refl. reflexivity. }
  cbn -[inject venv top]. unfold mwrap. rewrite E. eexists. reflexivity.
Qed.

Lemma plain_sets s c : Wf s -> casadi_structure s = Ok c -> forall l st,
  (forall k v, In (k, v) l -> exists m, v = PayMat m /\ In (plain_entry k (dm_sp m)) (s_entries s)) ->
  exists o, veccat_sets zero (SObj c (venv c) st) (map (fun x => ([PStr (fst x)], snd x)) l) = Ok o.
Proof.
  intros Hw Hc. induction l as [|[k v] l IH]; intros st H; [eexists; reflexivity|].
  destruct (H k v (or_introl eq_refl)) as (m & -> & He). cbn [map veccat_sets fst snd].
  destruct (plain_inject s c k m st Hw Hc He) as [st' ->]. apply IH. intros k' v' Hin. apply H. now right.
Qed.

Theorem plain_mx (l : list (string * (kval T * dm T))) :
  NoDup (map fst l) -> (forall x, In x l -> plain_ok x) ->
  exists o cat, struct_MX zero (map plain_item l) None = Ok o /\
    Wf (cs_struct (so_c o)) /\ casadi_structure (cs_struct (so_c o)) = Ok (so_c o) /\
    s_entries (cs_struct (so_c o)) = map (fun x => plain_entry (fst x) (dm_sp (snd (snd x)))) l /\ s_keys (cs_struct (so_c o)) = map fst l /\
    s_order (cs_struct (so_c o)) = map OName (map fst l) /\
    veccat_master o = Ok cat /\ length cat = cs_size (so_c o) /\
    forall k v m, In (k, (v, m)) l -> veccat_get zero o [PStr k] = Ok (RMat m) /\
      exists mi, cmap_get (top k []) (cs_map (so_c o)) = Some mi /\ dm_sp mi = dm_sp m /\ map (fun i => nth i cat zero) (dm_nz mi) = dm_nz m.
Proof.
  intros Hnd Hok.
  assert (Hit : items_ok (map plain_item l)).
  { intros it Hin. apply in_map_iff in Hin as (x & <- & Hx). simpl. split; [exact (proj1 (proj1 (Hok x Hx)))|]. intros s E. discriminate. }
  destruct (proj2 (proj1 (struct_builds (map plain_item l) Hit))) as (el & c & Es); [now rewrite plain_names|].
  destruct (proj2 (struct_builds _ Hit) el c Es) as (Hw & Hc & Hent & Hkeys & Hord). rewrite map_map in Hord.
  assert (Hel : el_entries el = arg_entries (map plain_item l)).
  { pose proof Es as Es'. unfold struct_ in Es'. destruct (entry_list (map plain_item l) None) as [el'|] eqn:Ee; [|discriminate]. cbn [rbind] in Es'.
    destruct (entry_list_result _ None el' Ee) as (E1 & _). destruct (structure_init _ _) as [s0|]; [|discriminate]. cbn [rbind] in Es'.
    destruct (casadi_structure s0); [|discriminate]. cbn [rbind] in Es'. congruence. }
  rewrite plain_entries in Hent, Hel. rewrite map_map in Hent. cbn [ce_entry] in Hent. rewrite plain_names in Hkeys.
  assert (Hsets : expr_sets el = map (fun x => ([PStr (fst x)], snd x)) (map (fun x => (fst x, pay_of_val (fst (snd x)))) l)).
  { unfold expr_sets. rewrite Hel. clear. induction l as [|x l IH]; [reflexivity|]. simpl. now rewrite IH. }
  destruct (plain_sets (cs_struct c) c Hw Hc (map (fun x => (fst x, pay_of_val (fst (snd x)))) l) (so_st (veccat_init (T := T) c))) as [o Ho].
  { intros k v Hin. apply in_map_iff in Hin as (x & [= <- <-] & Hx). exists (snd (snd x)). split; [exact (proj2 (Hok x Hx))|].
    rewrite Hent. apply in_map_iff. eauto. }
  assert (Hmx : struct_MX zero (map plain_item l) None = Ok o).
  { unfold struct_MX. rewrite Es. cbn [rbind]. rewrite (proj2 (forallb_forall _ _)).
    - cbn [negb]. rewrite Hsets. exact Ho.
    - intros ce Hce. rewrite Hel in Hce. apply in_map_iff in Hce as (x & <- & _). reflexivity. }
  assert (Hpok : forall ce v, In ce (arg_entries (map plain_item l)) -> ce_expr ce = Some v -> PayOk (pay_of_val v)).
  { intros ce v Hce E. rewrite plain_entries in Hce. apply in_map_iff in Hce as (x & <- & Hx). cbn [ce_expr] in E. injection E as <-.
    destruct (Hok x Hx) as [H1 ->]. exact H1. }
  destruct (mx_cat zero (map plain_item l) [] o o Hit Hpok Hmx) as (_ & cat & Hm & Hlen & Hr); [intros ? []|reflexivity|].
  assert (Hoc : so_c o = c).
  { change (veccat_init c) with (SObj c (venv (T := T) c) (so_st (veccat_init (T := T) c))) in Ho.
    clear - Ho. revert o Ho. generalize (so_st (veccat_init (T := T) c)) as st. generalize (map (fun x => (fst x, pay_of_val (fst (snd x)))) l) as q.
    intros q. enough (G : forall st o, veccat_sets zero (SObj c (venv c) st) (map (fun x => ([PStr (fst x)], snd x)) q) = Ok o -> so_c o = c) by exact G.
    induction q as [|x q IH]; intros st o H; [simpl in H; injection H as <-; reflexivity|]. cbn [map veccat_sets] in H. unfold veccat_set in H. cbn [so_c so_env so_st] in H.
    destruct (travS zero _ _ _ _ _ _ _) as [st1 [r|]]; [|discriminate]. exact (IH _ _ H). }
  rewrite Hoc in *. exists o, cat. rewrite Hoc. split; [exact Hmx|]. split; [exact Hw|]. split; [exact Hc|]. split; [exact Hent|]. split; [exact Hkeys|]. split; [rewrite Hord, map_map; reflexivity|].
  split; [exact Hm|]. split; [exact Hlen|]. intros k v m Hin.
  assert (He : In (plain_entry k (dm_sp m)) (s_entries (cs_struct c))) by (rewrite Hent; apply in_map_iff; exists (k, (v, m)); auto).
  destruct (in_split _ _ Hin) as (l1 & l2 & El).
  destruct (Hr (plain_entry k (dm_sp m)) [] (PayMat m) He (Forall2_nil _)) as (M & mi & [= <-] & Hi & Hsp & Hv & Hg).
  { rewrite app_nil_r. unfold initial. rewrite plain_entries, El, map_app, flat_map_app. cbn [map flat_map ce_expr app fst snd].
    eexists _, [], [], _, _. split; [reflexivity|]. split; [reflexivity|]. split; [cbn; f_equal; exact (proj2 (Hok _ Hin))|].
    intros x Hx [Hn _]. apply in_flat_map in Hx as (ce & Hce & Hx). apply in_map_iff in Hce as (y & <- & Hy). cbn in Hx. destruct Hx as [<-|[]]. cbn in Hn.
    rewrite El, map_app in Hnd. simpl in Hnd. apply NoDup_remove_2 in Hnd. apply Hnd. apply in_app_iff. right. rewrite <- Hn. now apply in_map. }
  split; [exact (Hg eq_refl)|].
  exists mi. split.
  - exact (i_get_inv zero (cs_struct c) c (top k []) _ mi Hw Hc (At_here _ (plain_entry k (dm_sp m)) [] He (Forall2_nil _)) Hi).
  - split; [now symmetry|exact Hv].
Qed.

(** The vector is the concatenation of the nonzeros in the given order. *)
Lemma entry_indices_plain n : entry_indices n [] [[]] = [top n []].
Proof. reflexivity. Qed.
Theorem plain_cat (l : list (string * (kval T * dm T))) o cat :
  NoDup (map fst l) -> (forall x, In x l -> plain_ok x) -> struct_MX zero (map plain_item l) None = Ok o -> veccat_master o = Ok cat ->
  cat = flat_map (fun x => dm_nz (snd (snd x))) l.
Proof.
  intros Hnd Hok Ho Hcat. destruct (plain_mx l Hnd Hok) as (o' & cat' & Ho' & Hw & Hc & Hent & Hkeys & Hord & Hcat' & Hlen & Hg).
  rewrite Ho in Ho'. injection Ho' as <-. rewrite Hcat in Hcat'. injection Hcat' as <-.
  assert (HL : leaves (cs_struct (so_c o)) = map (fun k => top k []) (map fst l)).
  { revert Hent Hord. destruct (cs_struct (so_c o)) as [es order] eqn:Es. cbn [s_entries s_order]. intros -> ->. rewrite leaves_eq, !map_map. cbn [plain_entry e_name e_dims].
    unfold order_indices. rewrite flat_map_concat_map, !map_map. cbn.
    assert (G : forall q, (forall x, In x q -> In x l) -> concat (map (fun x => entry_indices (fst x)
       (fst match dict_get (fst x) (pydict (map (fun x0 => (fst x0, ([] : list Z, ch (plain_entry (fst x0) (dm_sp (snd (snd x0))))))) l)) with Some y => y | None => ([0%Z], []) end)
       (snd match dict_get (fst x) (pydict (map (fun x0 => (fst x0, ([] : list Z, ch (plain_entry (fst x0) (dm_sp (snd (snd x0))))))) l)) with Some y => y | None => ([0%Z], []) end)) q) =
       map (fun x => top (fst x) []) q).
    { induction q as [|x q IH]; intros Hq; [reflexivity|]. cbn [map concat]. rewrite IH by (intros y Hy; apply Hq; now right).
      assert (D : dict_get (fst x) (pydict (map (fun x0 => (fst x0, ([] : list Z, ch (plain_entry (fst x0) (dm_sp (snd (snd x0))))))) l)) = Some ([], [[]])).
      { apply dict_get_pydict; [rewrite map_map; exact Hnd|]. apply in_map_iff. exists x. split; [reflexivity|]. apply Hq. now left. }
      rewrite D. reflexivity. }
    exact (G l (fun x H => H)). }
  pose proof (flat_partition _ _ Hw Hc) as Hfp. rewrite traverse_leaves, HL in Hfp.
  assert (E : cat = map (fun i => nth i cat zero) (seq 0 (cs_size (so_c o)))).
  { rewrite <- Hlen. clear. induction cat as [|x cat IH]; [reflexivity|]. simpl. f_equal. rewrite <- seq_shift, map_map. exact IH. }
  rewrite E, <- Hfp at 1. clear E Hfp HL. rewrite flat_map_concat_map, concat_map, !map_map, flat_map_concat_map. f_equal. apply map_ext_in. intros [k [v m]] Hin. cbn [fst snd].
  destruct (Hg k v m Hin) as (_ & mi & Hmi & _ & Hv). rewrite Hmi. exact Hv.
Qed.

(** The call with a dict of matrices that fit. *)
Lemma plain_so_sets s c : Wf s -> casadi_structure s = Ok c -> forall l st, Obj s c st ->
  (forall k v, In (k, v) l -> exists m sp, v = PayMat m /\ DmOk m /\ fits m sp /\ In (plain_entry k sp) (s_entries s)) ->
  exists o, so_sets zero (SObj c (num_env c) st) (map (fun x => ([PStr (fst x)], snd x)) l) = Ok o.
Proof.
  intros Hw Hc. pose proof (cs_struct_eq s c Hw Hc) as Es. induction l as [|[k v] l IH]; intros st Hst H; [eexists; reflexivity|].
  destruct (H k v (or_introl eq_refl)) as (m & sp & -> & Hmok & Hf & He). cbn [map so_sets fst snd].
  unfold so_set. cbn [so_c so_env so_st]. rewrite Es.
  destruct (plain_map s c k _ Hw Hc He) as (mi & Hm & Hsp & _).
  change [@PStr T k] with (@pidx T (top k [])).
  destruct (setitem_at zero s c st (top k []) _ mi (PayMat m) m Hst (At_here s _ [] He (Forall2_nil _)) eq_refl Hm Hmok eq_refl) as [[_ E]|[N _]].
  - rewrite E. apply IH; [|intros k' v' Hin; apply H; now right]. destruct Hst as [A B C]. split; auto. simpl. now rewrite vec_set_list_length.
  - exfalso. apply N. now rewrite Hsp.
Qed.

Lemma dict_get_map {B C} (f : B -> C) k : forall l, dict_get k (map (fun x => (fst x, f (snd x))) l) = option_map f (dict_get k l).
Proof. induction l as [|[k' v] l IH]; [reflexivity|]. simpl. destruct (String.eqb k k'); [reflexivity|exact IH]. Qed.

Theorem plain_call nan s c (kv : list (string * dm T)) :
  Wf s -> casadi_structure s = Ok c -> NoDup (map fst kv) ->
  (forall k, In k (map fst kv) <-> In k (map e_name (s_entries s))) ->
  (forall k m, In (k, m) kv -> DmOk m /\ exists sp, fits m sp /\ In (plain_entry k sp) (s_entries s)) ->
  exists o, call_struct zero nan c (CDict (map (fun x => (fst x, PayMat (snd x))) kv)) = Ok o /\ so_c o = c /\
    length (so_cat o) = cs_size c /\
    forall k m sp mi, In (k, m) kv -> In (plain_entry k sp) (s_entries s) -> cmap_get (top k []) (cs_map c) = Some mi ->
      map (fun i => nth i (so_cat o) zero) (dm_nz mi) = map (fit zero m sp) (sp_pat sp) /\
      so_get zero o [PStr k] = Ok (RMat (DM sp (map (fit zero m sp) (sp_pat sp)))).
Proof.
  intros Hw Hc Hnd Hk Hv. pose proof (cs_struct_eq s c Hw Hc) as Es. set (kvp := map (fun x => (fst x, PayMat (snd x))) kv).
  assert (Hf : map fst kvp = map fst kv) by (unfold kvp; rewrite map_map; reflexivity).
  assert (Hks : forall k, In k (map fst kvp) <-> In k (s_keys s)).
  { intros k. rewrite Hf, Hk. split; apply Permutation_in; [apply Permutation_sym, keys_names|apply keys_names]; exact Hw. }
  assert (Hsym : forall e, In e (s_entries s) -> e_symm e = false).
  { intros e He. assert (Hn : In (e_name e) (map fst kv)) by (apply Hk; now apply in_map). apply in_map_iff in Hn as ([k m] & E & Hin). simpl in E.
    destruct (Hv k m Hin) as (_ & sp & _ & He'). rewrite (name_inj _ _ _ (Wf_NoDup _ Hw) He He'); [reflexivity|now symmetry]. }
  assert (Hex : exists o, call_struct zero nan c (CDict kvp) = Ok o).
  { unfold call_struct. rewrite Es. rewrite (proj2 (same_keys_ok _ _) Hks). cbn [negb numeric_struct rbind].
    assert (G : forall l, (forall k, In k l -> In k (map fst kvp)) ->
      rmapM (fun k => match dict_get k kvp with Some v => Ok ([PStr k], v) | None => Err EKey end) l =
      Ok (map (fun x => ([@PStr T (fst x)], snd x)) (map (fun k => (k, match dict_get k kvp with Some v => v | None => PayNone end)) l))).
    { induction l as [|k l IH]; intros Hl; [reflexivity|]. simpl. rewrite IH by (intros j Hj; apply Hl; now right).
      destruct (dict_get k kvp) eqn:E; [reflexivity|]. exfalso. specialize (Hl k (or_introl eq_refl)).
      apply in_map_iff in Hl as ([k' v] & E' & Hin). simpl in E'. subst k'.
      rewrite (dict_get_of_In k v kvp) in E; [discriminate| |exact Hin]. rewrite Hf. exact Hnd. }
    rewrite G by (intros k; apply Hks). cbn [rbind].
    apply (plain_so_sets s c Hw Hc); [apply (start_Obj nan s c Hw Hc)|].
    intros k v Hin. apply in_map_iff in Hin as (k' & [= -> <-] & Hin). apply Hks, in_map_iff in Hin as ([k0 v] & E & Hin). simpl in E. subst k0.
    rewrite (dict_get_of_In k v kvp) by (auto; rewrite Hf; exact Hnd). unfold kvp in Hin. apply in_map_iff in Hin as ([k1 m] & [= -> <-] & Hin).
    destruct (Hv k m Hin) as (Hm & sp & Hs & He). exists m, sp. auto. }
  destruct Hex as [o Ho]. exists o. split; [exact Ho|].
  assert (Hpk : forall k v, In (k, v) kvp -> PayOk v).
  { intros k v Hin. unfold kvp in Hin. apply in_map_iff in Hin as ([k1 m] & [= -> <-] & Hin). exact (proj1 (Hv k m Hin)). }
  assert (Hnd' : NoDup (map fst kvp)) by (rewrite Hf; exact Hnd).
  destruct (call_dict zero nan s c kvp o Hw Hc Hsym Hnd' Hpk Ho) as [_ Hr].
  destruct (call_dict_run zero nan s c kvp o Hw Hc Hnd' Ho) as (Hp & _ & Hset).
  assert (HN : Obj s c (so_st o) /\ so_c o = c /\ so_env o = num_env c).
  { destruct (names_reads zero s c (so_st (start nan c)) (ordered s kvp) o) as (N1 & N2 & N3 & _); auto using start_Obj, cs_struct_eq.
    - eapply Permutation_NoDup; [apply Permutation_map, Permutation_sym; exact Hp|exact Hnd'].
    - eapply ordered_ok; eauto. }
  destruct HN as (N1 & N2 & N3). split; [exact N2|]. split; [exact (ob_len _ _ _ N1)|].
  intros k m sp mi Hin He Hm.
  assert (Hin' : In (k, PayMat m) kvp) by (unfold kvp; apply in_map_iff; exists (k, m); auto).
  destruct (Hr k (PayMat m) _ [] Hin' He eq_refl (Forall2_nil _)) as (q & sp' & R & [= <-] & Hsp & Hg & Hh). unfold IdxSp in Hsp. cbn in Hsp. subst sp'.
  destruct Hh as (M & [= <-] & Hf' & HR & Hat & _).
  assert (HmR : R = vals zero (so_cat o) mi).
  { unfold so_get in Hg. rewrite N2, N3, Es in Hg.
    rewrite (getitem_at zero s c (so_st o) (top k []) _ mi N1 (At_here s _ [] He (Forall2_nil _)) eq_refl Hm) in Hg. injection Hg as <-. reflexivity. }
  destruct (plain_map s c k sp Hw Hc He) as (mi' & Hm' & Hspi & Hmok & _). rewrite Hm in Hm'. injection Hm' as <-.
  assert (HRok : DmOk R) by (rewrite HmR; apply DmOk_map; exact Hmok).
  assert (E : dm_nz R = map (fit zero m sp) (sp_pat sp)).
  { rewrite (nz_vals zero R HRok), HR. apply map_ext_in. intros x Hx. unfold dm_val. now rewrite (Hat x Hx). }
  split.
  - rewrite <- E, HmR. reflexivity.
  - change [@PStr T k] with (@pidx T (top k [])). rewrite Hg. destruct R as [spR nzR]. simpl in HR, E. now subst.
Qed.

(** A dict with a None among the values is refused. *)
Theorem plain_call_none nan s c (kv : list (string * pay)) k o :
  Wf s -> casadi_structure s = Ok c -> NoDup (map fst kv) ->
  (forall e, In e (s_entries s) -> e = plain_entry (e_name e) (e_sp e)) ->
  (forall j v, In (j, v) kv -> PayOk v) -> In (k, PayNone) kv -> In k (map e_name (s_entries s)) ->
  call_struct zero nan c (CDict kv) <> Ok o.
Proof.
  intros Hw Hc Hnd Hpl Hpk Hin Hk Ho.
  assert (Hsym : forall e, In e (s_entries s) -> e_symm e = false) by (intros e He; rewrite (Hpl e He); reflexivity).
  destruct (call_dict zero nan s c kv o Hw Hc Hsym Hnd Hpk Ho) as [_ Hr].
  apply in_map_iff in Hk as (e & <- & He). pose proof He as He'. rewrite (Hpl e He) in He'.
  destruct (Hr (e_name e) PayNone (plain_entry (e_name e) (e_sp e)) [] Hin He' eq_refl (Forall2_nil _)) as (q & sp' & R & [= <-] & _ & _ & (M & HM & _)). discriminate.
Qed.
End P.
