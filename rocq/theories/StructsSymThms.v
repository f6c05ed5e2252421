(** Construction from a dict, including symmetric entries (C20). *)
From Coq Require Import Permutation.
From Verif Require Import PyBase IndexModel DMModel StructModel StructSpec PowerModel PowerSpec
  IndexProofs StructProofs LayoutProofs LayoutThms LayoutExamples DMProofs PowerProofs PowerThms SliceProofs PowerThms2 PowerThms3 PowerThms4 PowerThms5
  EntryModel EntrySpec EntryProofs StructsModel StructsSpec StructsThms1 StructsThms2.
Open Scope nat_scope.

Section P.
Context {T : Type} (zero : T).
Notation rval := (rval T).
Notation pel := (pel T).
Notation pay := (pay T).
Notation env := (env T).
Notation pstate := (pstate T).
Notation Holds := (Holds zero).
Notation Mirrored := (Mirrored zero).
Notation Keeps := (Keeps zero).

Lemma nz_pat (m : dm nat) : DmOk m -> length (dm_nz m) = length (sp_pat (dm_sp m)).
Proof. intros [_ H]. exact H. Qed.

Lemma set_twice (v : list T) ks xs ys : NoDup ks -> Forall (fun k => k < length v) ks -> length xs = length ks -> length ys = length ks ->
  vec_set_list (vec_set_list v ks xs) ks ys = vec_set_list v ks ys.
Proof.
  intros Hnd Hb Hx Hy. apply nth_error_ext. intros k. destruct (in_dec Nat.eq_dec k ks) as [Hin|Hin].
  - apply In_nth_error in Hin as [i Hi]. assert (exists y, nth_error ys i = Some y) as [y Ey].
    { destruct (nth_error ys i) eqn:E; [eauto|]. apply nth_error_None in E. apply nth_error_Some_lt_ in Hi. lia. }
    rewrite !(vec_set_list_at _ _ _ i k y); auto. now rewrite vec_set_list_length.
  - now rewrite !vec_set_list_other.
Qed.

(** One assignment writes fixed values at the positions of the index. *)
Lemma write_any s c (st st' : pstate) ci e v r :
  Obj s c st -> At s ci e -> SymmOk e -> pay_ok v ->
  setitem zero s (num_env c) (pidx ci) v st = (st', Ok r) ->
  exists m g, cmap_get ci (cs_map c) = Some m /\
    (forall st2, Obj s c st2 -> exists r2, setitem zero s (num_env c) (pidx ci) v st2 =
       (with_master st2 (vec_set_list (ps_master st2) (dm_nz m) (map g (sp_pat (dm_sp m)))), Ok r2)) /\
    exists R, getitem zero s (num_env c) (pidx ci) st' = Ok (RMat R) /\ Keeps e v (dm_sp m) R.
Proof.
  intros Ho Ha Hs Hv H. pose proof (ob_wf _ _ _ Ho) as Hw. pose proof (ob_built _ _ _ Ho) as Hc.
  destruct (e_symm e) eqn:Es.
  - destruct (Hs Es) as (n & orig & Hse).
    destruct (map_get_leaf s c ci e Hw Hc (At_Leaf _ _ _ Ha (se_prim _ _ _ Hse))) as (m & Hm & _).
    destruct (sy_ok s c ci m Hw Hc Hm) as (Hok & Hnd & Hb).
    pose proof (sy_nr s c ci e n orig m Hw Hc Ha Hse Hm) as Hnr. pose proof (sy_nc s c ci e n orig m Hw Hc Ha Hse Hm) as Hnc.
    pose proof (sy_pat s c ci e n orig m Hw Hc Ha Hse Hm) as Hpat.
    destruct (to_mtype v) as [M|x] eqn:HM; [|rewrite (setitem_at_err zero s c st ci e m v x Ho Ha Hm HM) in H; discriminate].
    pose proof (to_mtype_ok v M Hv HM) as HMok.
    assert (Hcase : dm_is_scalar M = true \/ dm_is_scalar M = false /\ dm_sp M = orig).
    { destruct (dm_is_scalar M) eqn:Esc; [now left|]. right. split; [reflexivity|].
      destruct (spy_eqb orig (dm_sp M)) eqn:E; [apply spy_eqb_eq in E; auto|]. exfalso.
      assert (Hn : dm_sp M <> orig). { intros E'. rewrite E', spy_eqb_refl in E. discriminate. }
      rewrite (symm_write_mismatch zero s c st ci e n orig v M Ho Ha Hse HM Esc Hn) in H. discriminate. }
    set (g := fun p => if dm_is_scalar M then dm_val zero M (0, 0) else dm_val zero M p).
    assert (G : forall st2, Obj s c st2 -> exists r2, setitem zero s (num_env c) (pidx ci) v st2 =
       (with_master st2 (vec_set_list (ps_master st2) (dm_nz m) (map g (sp_pat (dm_sp m)))), Ok r2)).
    { intros st2 Ho2. assert (Hib : inb (ps_master st2) m) by (unfold inb; now rewrite (ob_len _ _ _ Ho2)).
      unfold setitem. rewrite <- (app_nil_r (pidx ci)), (travS_at zero s ci e Ha Hw).
      simpl. unfold mwrap, setter, mbind, mlift. rewrite HM. simpl. rewrite Hm, Es. simpl.
      destruct Hcase as [Esc|[Esc Esp]]; rewrite Esc.
      - assert (Hf : fits M (dm_sp m)). { left. unfold dm_is_scalar in Esc. apply andb_true_iff in Esc as [E1 E2]. apply Nat.eqb_eq in E1, E2. unfold dm_shape. congruence. }
        destruct (vec_set_ok zero (ps_master st2) m M Hok HMok Hib) as [[_ E1]|[Hf' _]]; [|contradiction].
        rewrite E1. simpl. set (v1 := vec_set_list (ps_master st2) _ _).
        destruct (vec_set_ok zero v1 m M Hok HMok) as [[_ E2]|[Hf' _]]; [unfold inb, v1; now rewrite vec_set_list_length| |contradiction].
        rewrite E2. simpl. eexists. unfold v1. rewrite set_twice; auto; try (now rewrite map_length, nz_pat).
        replace (map g (sp_pat (dm_sp m))) with (map (fit zero M (dm_sp m)) (sp_pat (dm_sp m))); [reflexivity|].
        apply map_ext. intros p. unfold fit, g. now rewrite Esc.
      - rewrite (se_orig _ _ _ Hse). simpl. rewrite Esp, spy_eqb_refl.
        assert (Hrc : dm_nr M = n /\ dm_nc M = n) by (unfold dm_nr, dm_nc; rewrite Esp; split; apply Hse). destruct Hrc as [Hr1 Hr2].
        unfold dm_get_sp. change (dm_nr (dm_T M)) with (dm_nc M). change (dm_nc (dm_T M)) with (dm_nr M). fold (dm_nr m) (dm_nc m).
        rewrite Hr1, Hr2, Hnr, Hnc, Nat.eqb_refl. simpl.
        set (PT := dm_project zero (dm_T M) (dm_sp m)). set (PU := dm_project zero M (dm_sp m)).
        assert (HPT : DmOk PT) by (split; [apply Hok|simpl; now rewrite map_length]).
        assert (HPU : DmOk PU) by (split; [apply Hok|simpl; now rewrite map_length]).
        destruct (vec_set_ok zero (ps_master st2) m PT Hok HPT Hib) as [[_ E1]|[Hf _]]; [|exfalso; apply Hf; right; left; reflexivity].
        rewrite E1. simpl. set (v1 := vec_set_list (ps_master st2) _ _).
        destruct (vec_set_ok zero v1 m PU Hok HPU) as [[_ E2]|[Hf _]]; [unfold inb, v1; now rewrite vec_set_list_length| |exfalso; apply Hf; right; left; reflexivity].
        rewrite E2. simpl. eexists. unfold v1. rewrite set_twice; auto; try (now rewrite map_length, nz_pat).
        replace (map g (sp_pat (dm_sp m))) with (map (fit zero PU (dm_sp m)) (sp_pat (dm_sp m))); [reflexivity|].
        apply map_ext_in. intros p Hp. unfold fit, g. rewrite Esc.
        assert (Es' : dm_is_scalar PU = false).
        { unfold dm_is_scalar in *. unfold PU, dm_nr, dm_nc. simpl. fold (dm_nr m) (dm_nc m). rewrite Hnr, Hnc. now rewrite Hr1, Hr2 in Esc. }
        rewrite Es'. unfold PU, dm_nr at 1, dm_nc at 1. simpl. rewrite !Nat.eqb_refl. simpl.
        unfold dm_val at 1, dm_at. simpl. rewrite pos_assoc_fun. apply pos_mem_In in Hp. now rewrite Hp. }
    exists m, g. split; [exact Hm|]. split; [exact G|].
    destruct (G st Ho) as [r2 E2]. rewrite E2 in H. injection H as <- _.
    assert (Ho' : Obj s c (with_master st (vec_set_list (ps_master st) (dm_nz m) (map g (sp_pat (dm_sp m)))))) by (apply Obj_with_master; [exact Ho|apply vec_set_list_length]).
    destruct (sy_read zero s c ci e n orig m Hw Hc Ha Hse Hm _ Ho') as (R & H1 & H2 & H3 & H4).
    exists R. split; [exact H1|]. unfold StructsSpec.Keeps. rewrite Es. exists n, orig. split; [exact Hse|]. exists M. split; [exact HM|].
    split; [destruct Hcase as [?|[_ ?]]; auto|]. split; [exact H2|]. unfold dm_shape in H3. injection H3 as Rn Rc. split; [exact Rn|]. split; [exact Rc|].
    assert (Hat : forall a b, a <= b -> dm_at R (a, b) = if pos_mem (a, b) (sp_pat orig) then Some (g (a, b)) else None).
    { intros a b Hab. rewrite H4. unfold mirror. simpl. rewrite (proj2 (Nat.leb_le a b) Hab). unfold vals. rewrite dm_at_map. cbn [ps_master with_master].
      destruct (pos_mem (a, b) (sp_pat orig)) eqn:Em.
      - apply pos_mem_In in Em. assert (Hi : In (a, b) (sp_pat (dm_sp m))) by (apply Hpat; auto).
        destruct (dm_at_Some m (a, b) Hok Hi) as (k & Ek). rewrite Ek. simpl. f_equal. apply set_at; auto.
        unfold inb. now rewrite (ob_len _ _ _ Ho).
      - destruct (dm_at m (a, b)) as [k|] eqn:Ek; [|reflexivity]. exfalso. apply dm_at_In in Ek. apply Hpat in Ek as [Ek _]. apply pos_mem_In in Ek. congruence. }
    assert (Hsy : forall a b, dm_at R (a, b) = dm_at R (b, a)) by (intros a b; rewrite !H4; apply mirror_sym).
    split; [|split].
    + intros a b Hab Hi. apply pos_mem_In in Hi. pose proof (Hat a b Hab) as E. rewrite Hi in E. rewrite (Hsy b a), E. split; reflexivity.
    + intros a b Hab Hi. pose proof (Hat a b Hab) as E. destruct (pos_mem (a, b) (sp_pat orig)) eqn:Em; [apply pos_mem_In in Em; contradiction|].
      rewrite (Hsy b a), E. split; reflexivity.
    + intros EM Hps. apply dm_ext; auto.
      * rewrite Rn. unfold dm_nr. rewrite EM. symmetry. apply Hse.
      * rewrite Rc. unfold dm_nc. rewrite EM. symmetry. apply Hse.
      * assert (Hup : forall a b, a <= b -> dm_at R (a, b) = dm_at M (a, b)).
        { intros a b Hab. rewrite (Hat a b Hab). destruct (pos_mem (a, b) (sp_pat orig)) eqn:Em.
          - apply pos_mem_In in Em. rewrite <- EM in Em. destruct (dm_at_Some M (a, b) HMok Em) as (x & Ex). rewrite Ex. f_equal. unfold g.
            destruct (dm_is_scalar M) eqn:Esc; [|unfold dm_val; now rewrite Ex].
            unfold dm_is_scalar in Esc. apply andb_true_iff in Esc as [E1 E2']. apply Nat.eqb_eq in E1, E2'.
            destruct (dm_at_bounds M _ _ HMok Ex) as [B1 B2]. simpl in B1, B2. assert (a = 0) by lia. assert (b = 0) by lia. subst. unfold dm_val. now rewrite Ex.
          - destruct (dm_at M (a, b)) eqn:Ex; [|reflexivity]. exfalso. apply dm_at_In in Ex. rewrite EM in Ex. apply pos_mem_In in Ex. congruence. }
        intros [a b]. destruct (Nat.le_ge_cases a b) as [Hab|Hab]; [auto|]. rewrite Hsy, Hps. auto.
  - destruct (write_one zero s c st st' ci e v r Ho Ha Es Hv H) as (m & M & Hm & HM & Hf & Est).
    exists m, (fit zero M (dm_sp m)). split; [exact Hm|]. split.
    + intros st2 Ho2. destruct (setitem_at zero s c st2 ci e m v M Ho2 Ha Es Hm Hv HM) as [[_ E]|[Hn _]]; [eauto|contradiction].
    + assert (Hi' : i_get zero s (@pidx T ci) = Ok (RIdx m)) by (rewrite (i_get_at zero s c ci e Hw Hc Ha), Hm; reflexivity).
      destruct (read_after_write zero s c st ci e m v M st' r Ho Ha Es Hi' Hv HM H) as (_ & R & HR & H1 & H2 & H3).
      exists R. split; [exact HR|]. unfold StructsSpec.Keeps. rewrite Es. exists M. auto.
Qed.

Definition writableS (s : structure) (x : cidx * pay) : Prop := exists e, At s (fst x) e /\ SymmOk e /\ pay_ok (snd x).

Lemma seq_frameS s c l : forall (st st' : pstate), Obj s c st -> Forall (writableS s) l ->
  write_seq zero s (num_env c) (wlist l) st = (st', true) ->
  Obj s c st' /\ (forall k, ~ written c l k -> nth_error (ps_master st') k = nth_error (ps_master st) k).
Proof.
  induction l as [|[ci v] l IH]; intros st st' Ho Hl H.
  - simpl in H. injection H as ->. auto.
  - cbn [wlist map write_seq fst snd] in H. inversion Hl as [|x l0 (e & Ha & Hs & Hv) Hl']; subst. cbn [fst snd] in *.
    destruct (setitem zero s (num_env c) (pidx ci) v st) as [st1 [r|]] eqn:E1; [|discriminate].
    destruct (write_any s c st st1 ci e v r Ho Ha Hs Hv E1) as (m & g & Hm & HG & _).
    destruct (HG st Ho) as [r2 E2]. rewrite E2 in E1. injection E1 as <- _.
    destruct (IH _ st' (Obj_with_master s c st _ Ho (vec_set_list_length _ _ _)) Hl' H) as [IH1 IH2].
    split; [exact IH1|]. intros k Hk. rewrite IH2.
    + simpl. apply vec_set_list_other. intros Hin. apply Hk. exists (ci, v), m. split; [now left|auto].
    + intros (x & m' & Hx & Hm' & Hk'). apply Hk. exists x, m'. split; [now right|auto].
Qed.

Lemma seq_readsS s c l : forall (st st' : pstate), Obj s c st -> Forall (writableS s) l ->
  ForallOrdPairs (fun x y => apart (fst x) (fst y)) l ->
  write_seq zero s (num_env c) (wlist l) st = (st', true) ->
  forall ci v, In (ci, v) l -> exists e m R, At s ci e /\ cmap_get ci (cs_map c) = Some m /\
    getitem zero s (num_env c) (pidx ci) st' = Ok (RMat R) /\ Keeps e v (dm_sp m) R.
Proof.
  induction l as [|[ci v] l IH]; intros st st' Ho Hl Hp H ci0 v0 Hin; [destruct Hin|].
  cbn [wlist map write_seq fst snd] in H. inversion Hl as [|x l0 Hwr Hl']; subst. destruct Hwr as (e & Ha & Hs & Hv). cbn [fst snd] in *.
  inversion Hp as [|x l0 Hap Hp']; subst. cbn [fst] in Hap.
  destruct (setitem zero s (num_env c) (pidx ci) v st) as [st1 [r|]] eqn:E1; [|discriminate].
  destruct (write_any s c st st1 ci e v r Ho Ha Hs Hv E1) as (m & g & Hm & HG & R & HR & HK).
  assert (Ho1 : Obj s c st1).
  { destruct (HG st Ho) as [r2 E2]. rewrite E2 in E1. injection E1 as <- _. apply Obj_with_master; [exact Ho|apply vec_set_list_length]. }
  destruct Hin as [[= <- <-]|Hin]; [|eapply IH; eauto].
  pose proof (ob_wf _ _ _ Ho) as Hw. pose proof (ob_built _ _ _ Ho) as Hc.
  exists e, m, R. split; [exact Ha|]. split; [exact Hm|]. split; [|exact HK].
  rewrite <- HR. destruct (seq_frameS s c l st1 st' Ho1 Hl' H) as [_ Hfr].
  eapply getitem_agree; eauto. intros k Hk. apply Hfr. intros ([ci' v'] & m' & Hx & Hm' & Hk'). cbn [fst] in *.
  rewrite Forall_forall in Hap. apply (at_disjoint s c ci ci' m m' k Hw Hc Hm Hm'); auto. exact (Hap _ Hx).
Qed.

Lemma seq_agreeS s c l : forall (a b a' : pstate), Obj s c a -> Obj s c b -> Forall (writableS s) l ->
  write_seq zero s (num_env c) (wlist l) a = (a', true) ->
  exists b', write_seq zero s (num_env c) (wlist l) b = (b', true) /\
    forall k, nth_error (ps_master a) k = nth_error (ps_master b) k \/ written c l k ->
      nth_error (ps_master a') k = nth_error (ps_master b') k.
Proof.
  induction l as [|[ci v] l IH]; intros a b a' Ha Hb Hl H.
  - simpl in H. injection H as ->. exists b. split; [reflexivity|]. intros k [E|(x & m & [] & _)]. exact E.
  - cbn [wlist map write_seq fst snd] in H |- *. inversion Hl as [|x l0 (e & Hat & Hs & Hv) Hl']; subst. cbn [fst snd] in *.
    destruct (setitem zero s (num_env c) (pidx ci) v a) as [a1 [r|]] eqn:E1; [|discriminate].
    destruct (write_any s c a a1 ci e v r Ha Hat Hs Hv E1) as (m & g & Hm & HG & _).
    destruct (HG a Ha) as [r2 E2]. rewrite E2 in E1. injection E1 as <- _. destruct (HG b Hb) as [r3 E3]. rewrite E3.
    destruct (IH (with_master a (vec_set_list (ps_master a) (dm_nz m) (map g (sp_pat (dm_sp m)))))
                 (with_master b (vec_set_list (ps_master b) (dm_nz m) (map g (sp_pat (dm_sp m))))) a')
      as (b' & Hb' & Hag); auto using Obj_with_master, vec_set_list_length.
    exists b'. split; [exact Hb'|]. intros k Hk. apply Hag.
    destruct (map_ok s c ci m (ob_wf _ _ _ Ha) (ob_built _ _ _ Ha) Hm) as (_ & [_ Hlen] & Hnd & Hbd & _).
    simpl ps_master. destruct (in_dec Nat.eq_dec k (dm_nz m)) as [Hin|Hin].
    + left. apply In_nth_error in Hin as [i Hi].
      assert (exists x, nth_error (map g (sp_pat (dm_sp m))) i = Some x) as [x Hx].
      { apply nth_error_Some_lt_ in Hi. destruct (nth_error (map g (sp_pat (dm_sp m))) i) eqn:E'; [eauto|].
        apply nth_error_None in E'. rewrite map_length in E'. unfold sp_nnz in Hlen. lia. }
      rewrite !(vec_set_list_at _ _ _ i k x); auto.
      * now rewrite (ob_len _ _ _ Hb).
      * now rewrite (ob_len _ _ _ Ha).
    + rewrite !vec_set_list_other by exact Hin. destruct Hk as [Hk|(y & m' & [<-|Hy] & Hm' & Hk')].
      * now left.
      * cbn [fst] in Hm'. rewrite Hm in Hm'. injection Hm' as <-. contradiction.
      * right. exists y, m'. auto.
Qed.

Lemma names_writableS s kv (l' : list (cidx * pay)) : Wf s ->
  (forall x, In x kv -> PayOk (snd x) /\ exists e, In e (s_entries s) /\ e_name e = fst x /\ SymmOk e) ->
  names_seq s kv = map (fun x => (fst x, Some (snd x))) l' -> Forall (writableS s) l'.
Proof.
  intros Hw Hkv El. apply Forall_forall. intros [ci q] Hi. apply (names_in s kv l' El) in Hi.
  unfold names_seq in Hi. apply in_flat_map in Hi as ([n p] & Hx & Hi). cbn [fst snd] in Hi.
  destruct (Hkv _ Hx) as (Hp & e & He & En & Hs). cbn [fst snd] in *. subst n. rewrite (s_dict_get s e (Wf_NoDup _ Hw) He) in Hi.
  destruct (flatW_inv _ _ _ _ _ _ Hi) as (jdx & Hj & -> & Hn); [eauto|]. exists e. split; [now apply At_here|]. split; [exact Hs|].
  eapply nest_item_ok; eauto.
Qed.

Lemma names_apart s (kv : list (string * pay)) l' : NoDup (map fst kv) -> names_seq s kv = map (fun x => (fst x, Some (snd x))) l' ->
  ForallOrdPairs (fun x y : cidx * pay => apart (fst x) (fst y)) l'.
Proof.
  intros Hnd El.
  assert (G : ForallOrdPairs (fun x y : cidx * option pay => apart (fst x) (fst y)) (names_seq s kv)).
  { unfold names_seq. clear -Hnd. induction kv as [|[n p] kv IH]; [constructor|]. inversion Hnd as [|x l Hx Hl]; subst. cbn [flat_map].
    apply FOP_app; [|auto|].
    - cbn [fst snd]. destruct (dict_get n (s_dict s)); [apply flatW_apart|constructor].
    - intros x y Hi Hj. cbn [fst snd] in Hi. destruct (dict_get n (s_dict s)) as [e|]; [|destruct Hi].
      apply in_flat_map in Hj as ([n' p'] & Hy & Hj). cbn [fst snd] in Hj. destruct (dict_get n' (s_dict s)) as [e'|]; [|destruct Hj].
      destruct (flatW_keys _ _ _ _ _ Hi) as [r ->]. destruct (flatW_keys _ _ _ _ _ Hj) as [r' ->]. apply top_apart.
      intros ->. apply Hx. change n' with (fst (n', p')). now apply in_map. }
  rewrite El in G. clear -G. induction l' as [|x l' IH]; [constructor|]. inversion G as [|y l0 H1 H2]; subst. constructor; [|auto].
  rewrite Forall_map in H1. exact H1.
Qed.

Lemma names_readsS s c (st : pstate) kv (o : sobj T) : Obj s c st -> cs_struct c = s ->
  NoDup (map fst kv) -> (forall x, In x kv -> PayOk (snd x) /\ exists e, In e (s_entries s) /\ e_name e = fst x /\ SymmOk e) ->
  so_sets zero (SObj c (num_env c) st) (map (fun x => ([PStr (fst x)], snd x)) kv) = Ok o ->
  Obj s c (so_st o) /\ so_c o = c /\ so_env o = num_env c /\
  forall n p e idx, In (n, p) kv -> In e (s_entries s) -> e_name e = n -> InDims idx (e_dims e) ->
    exists q sp R, nest_item p idx = Some q /\ IdxSp e sp /\ so_get zero o (pidx (top n idx)) = Ok (RMat R) /\ Keeps e q sp R.
Proof.
  intros Ho Hcs Hnd Hkv H. pose proof (ob_wf _ _ _ Ho) as Hw. pose proof (ob_built _ _ _ Ho) as Hc.
  destruct (so_sets_seq zero s c (num_env c) Hcs Hw kv st o) as (E1 & E2 & Hseq).
  { intros x Hx. destruct (Hkv x Hx) as (_ & e & H1 & H2 & _). eauto. }
  { exact H. }
  destruct (all_some zero _ _ _ _ _ Hseq) as [l' El].
  pose proof (names_in s kv l' El) as Hin.
  assert (Hseq' : write_seq zero s (num_env c) (wlist l') st = (so_st o, true)).
  { rewrite <- Hseq, El. unfold wl, wlist. rewrite map_map. reflexivity. }
  pose proof (names_writableS s kv l' Hw Hkv El) as Hwr.
  pose proof (names_apart s kv l' Hnd El) as Hap.
  destruct (seq_frameS s c l' st (so_st o) Ho Hwr Hseq') as [Ho' _].
  split; [exact Ho'|]. split; [exact E1|]. split; [exact E2|].
  intros n p e idx Hn He En Hidx.
  assert (Hq : exists q, nest_item p idx = Some q).
  { destruct (nest_item p idx) as [q|] eqn:Eq; [eauto|]. exfalso.
    assert (Hnone : exists ci, In (ci, None) (names_seq s kv)).
    { subst n. assert (G : forall ds idx0 p jdx, InDims jdx ds -> @nest_item T p jdx = None -> exists ci, In (ci, None) (flatW (e_name e) ds idx0 p)).
      { clear. induction ds as [|d ds IH]; intros idx0 p jdx Hj Hn; inversion Hj as [|j d' jdx' ds' Hjd Hj']; subst; [discriminate|].
        simpl in Hn. cbn [flatW]. destruct (item p (Z.to_nat j)) as [q|] eqn:Ep.
        - destruct (IH (idx0 ++ [Z.of_nat (Z.to_nat j)]) q jdx' Hj' Hn) as [ci Hci]. exists ci. apply in_flat_map. exists (Z.to_nat j).
          split; [apply in_seq; lia|]. now rewrite Ep.
        - eexists. apply in_flat_map. exists (Z.to_nat j). split; [apply in_seq; lia|]. rewrite Ep. now left. }
      destruct (G (e_dims e) [] p idx Hidx Eq) as [ci Hci]. exists ci. unfold names_seq. apply in_flat_map. exists (e_name e, p). split; [exact Hn|].
      cbn [fst snd]. rewrite (s_dict_get s e (Wf_NoDup _ Hw) He). exact Hci. }
    destruct Hnone as [ci Hci]. rewrite El in Hci. apply in_map_iff in Hci as (? & ? & _). discriminate. }
  destruct Hq as [q Hq]. exists q.
  assert (Hmem : In (top n idx, q) l').
  { apply Hin. unfold names_seq. apply in_flat_map. exists (n, p). split; [exact Hn|]. cbn [fst snd]. subst n.
    rewrite (s_dict_get s e (Wf_NoDup _ Hw) He). apply (flatW_in (e_name e) (e_dims e) [] p idx q); auto. }
  destruct (seq_readsS s c l' st (so_st o) Ho Hwr Hap Hseq' (top n idx) q Hmem) as (e1 & m & R & Ha1 & Hm & HR & HH).
  assert (e1 = e). { apply (At_fun s (top n idx)); auto. subst n. now apply At_here. } subst e1.
  exists (dm_sp m), R. split; [exact Hq|]. split; [eapply idx_sp; eauto|]. split; [|exact HH].
  unfold so_get. rewrite E1, E2, Hcs. exact HR.
Qed.

(** ** C20 *)
Lemma ordered_okS s c nan kv o : Wf s -> casadi_structure s = Ok c -> (forall e, In e (s_entries s) -> SymmOk e) ->
  NoDup (map fst kv) -> (forall k v, In (k, v) kv -> PayOk v) -> call_struct zero nan c (CDict kv) = Ok o ->
  forall x, In x (ordered s kv) -> PayOk (snd x) /\ exists e, In e (s_entries s) /\ e_name e = fst x /\ SymmOk e.
Proof.
  intros Hw Hc Hs Hnd Hok H [n p] Hx. destruct (call_dict_run zero nan s c kv o Hw Hc Hnd H) as (Hp & Hk & _).
  apply (Permutation_in _ Hp) in Hx. split; [eapply Hok; eauto|].
  assert (Hn : In n (map fst kv)) by (change n with (fst (n, p)); now apply in_map).
  apply Hk, in_map_iff in Hn as (e & En & He). exists e. auto.
Qed.

Theorem call_dict_all nan s c kv (o : sobj T) :
  Wf s -> casadi_structure s = Ok c -> (forall e, In e (s_entries s) -> SymmOk e) ->
  NoDup (map fst kv) -> (forall k v, In (k, v) kv -> PayOk v) ->
  call_struct zero nan c (CDict kv) = Ok o ->
  (forall k, In k (map fst kv) <-> In k (map e_name (s_entries s))) /\
  (forall n p e idx, In (n, p) kv -> In e (s_entries s) -> e_name e = n -> InDims idx (e_dims e) ->
    exists q sp R, nest_item p idx = Some q /\ IdxSp e sp /\ so_get zero o (pidx (top n idx)) = Ok (RMat R) /\ Keeps e q sp R).
Proof.
  intros Hw Hc Hs Hnd Hok H. destruct (call_dict_run zero nan s c kv o Hw Hc Hnd H) as (Hp & Hk & Hset).
  split; [exact Hk|].
  destruct (names_readsS s c (so_st (start nan c)) (ordered s kv) o) as (_ & _ & _ & Hr); eauto using start_Obj, cs_struct_eq.
  - eapply Permutation_NoDup; [apply Permutation_map, Permutation_sym; exact Hp|exact Hnd].
  - eapply ordered_okS; eauto.
  - intros n p e idx Hn. apply Hr. eapply Permutation_in; [apply Permutation_sym; exact Hp|exact Hn].
Qed.

(** No element keeps the initial fill value. *)
Theorem call_dict_all_fill nan nan' s c kv (o o' : sobj T) :
  Wf s -> casadi_structure s = Ok c -> (forall e, In e (s_entries s) -> SymmOk e) ->
  NoDup (map fst kv) -> (forall k v, In (k, v) kv -> PayOk v) ->
  call_struct zero nan c (CDict kv) = Ok o -> call_struct zero nan' c (CDict kv) = Ok o' -> so_cat o = so_cat o'.
Proof.
  intros Hw Hc Hs Hnd Hok H H'. pose proof (cs_struct_eq s c Hw Hc) as Hcs.
  destruct (call_dict_run zero nan s c kv o Hw Hc Hnd H) as (Hp & Hk & Hset).
  destruct (call_dict_run zero nan' s c kv o' Hw Hc Hnd H') as (_ & _ & Hset').
  pose proof (ordered_okS s c nan kv o Hw Hc Hs Hnd Hok H) as Hord.
  assert (Hex : forall x, In x (ordered s kv) -> exists e, In e (s_entries s) /\ e_name e = fst x).
  { intros x Hx. destruct (Hord x Hx) as (_ & e & ? & ? & _). eauto. }
  destruct (so_sets_seq zero s c (num_env c) Hcs Hw _ _ o Hex Hset) as (E1 & E2 & Hseq).
  destruct (so_sets_seq zero s c (num_env c) Hcs Hw _ _ o' Hex Hset') as (E1' & E2' & Hseq').
  destruct (all_some zero _ _ _ _ _ Hseq) as [l El].
  pose proof (names_writableS s _ l Hw Hord El) as Hwr.
  assert (Ew : wl (names_seq s (ordered s kv)) = wlist l) by (rewrite El; unfold wl, wlist; now rewrite map_map).
  rewrite Ew in Hseq, Hseq'.
  destruct (seq_agreeS s c l _ _ _ (start_Obj nan s c Hw Hc) (start_Obj nan' s c Hw Hc) Hwr Hseq) as (b & Hb & Hag).
  assert (Eb : b = so_st o') by (unfold start in Hb; cbn [so_st] in Hb; congruence). subst b.
  destruct (seq_frameS s c l _ _ (start_Obj nan s c Hw Hc) Hwr Hseq) as [Ho1 _].
  destruct (seq_frameS s c l _ _ (start_Obj nan' s c Hw Hc) Hwr Hseq') as [Ho2 _].
  unfold so_cat. apply nth_error_ext. intros k. destruct (Nat.ltb_spec k (cs_size c)) as [Hlt|Hge].
  - apply Hag. right. destruct (cover s c k Hw Hc Hlt) as (e & idx & m & He & Hidx & Hm & Hkm).
    assert (Hne : In (e_name e) (map fst kv)) by (apply Hk; now apply in_map).
    apply in_map_iff in Hne as ([n p] & En & Hnp). simpl in En. subst n.
    assert (Hno : In (e_name e, p) (ordered s kv)) by (eapply Permutation_in; [apply Permutation_sym; exact Hp|exact Hnp]).
    destruct (names_readsS s c (so_st (start nan c)) (ordered s kv) o) as (_ & _ & _ & Hr); eauto using start_Obj.
    { eapply Permutation_NoDup; [apply Permutation_map, Permutation_sym; exact Hp|exact Hnd]. }
    destruct (Hr (e_name e) p e idx Hno He eq_refl Hidx) as (q & _ & _ & Hq & _).
    exists (top (e_name e) idx, q), m. split; [|auto]. apply (names_in s _ l El). unfold names_seq. apply in_flat_map.
    exists (e_name e, p). split; [exact Hno|]. cbn [fst snd]. rewrite (s_dict_get s e (Wf_NoDup _ Hw) He). now apply (flatW_in (e_name e) (e_dims e) []).
  - rewrite (proj2 (nth_error_None _ _)) by (rewrite (ob_len _ _ _ Ho1); exact Hge).
    rewrite (proj2 (nth_error_None _ _)) by (rewrite (ob_len _ _ _ Ho2); exact Hge). reflexivity.
Qed.

(** An entry with struct= and type='symm' is accepted, but cannot be read unless it has
    exactly one element. *)
Theorem symm_struct_unreadable s c (st : pstate) ci e s' n :
  Obj s c st -> At s ci e -> e_symm e = true -> e_struct e = Some s' -> SizeOf s' n -> n <> 1 ->
  getitem zero s (num_env c) (pidx ci) st = Err EException.
Proof.
  intros Ho Ha Es Est (c' & Hc' & Hsz) Hn. pose proof (ob_wf _ _ _ Ho) as Hw. pose proof (ob_built _ _ _ Ho) as Hc.
  unfold getitem. rewrite <- (app_nil_r (pidx ci)), (travS_at zero s ci e Ha Hw). rewrite mwrap_snd. simpl. unfold getter. simpl.
  destruct (cmap_get ci (cs_map c)) as [m|] eqn:Hm; [|reflexivity]. rewrite Es. unfold mbind, mlift, get_master. simpl.
  pose proof (At_Block s ci e s' Ha Est) as Hb.
  destruct (map_ok s c ci m Hw Hc Hm) as (_ & Hok & _ & Hbd & _).
  assert (Hsp : dm_sp m = sp_dense n 1).
  { destruct (Block_segment s _ s' Hw Hb) as (l1 & l2 & Hseg).
    pose proof (Block_Wf _ _ _ Hw Hb) as Hw'. destruct (casadi_structure_ok s' Hw') as (c2 & Hc2 & _ & Hsz2 & _).
    assert (Hne : leaves s' <> []).
    { destruct (map_keys s c _ m Hw Hc Hm) as [(e1 & Hl)|(s1 & Hb1 & Hn1)].
      - exfalso. destruct (Leaf_At _ _ _ Hl) as [Ha1 Es1]. rewrite (At_fun s _ _ _ Hw Ha1 Ha) in Es1. congruence.
      - destruct (Block_At _ _ _ Hb) as (e2 & Ha2 & Es2). destruct (Block_At _ _ _ Hb1) as (e3 & Ha3 & Es3).
        rewrite (At_fun s _ _ _ Hw Ha3 Ha2) in Es3. congruence. }
    rewrite (map_block s c _ s' l1 l2 Hw Hc Hb Hne Hseg) in Hm. injection Hm as <-. simpl. rewrite seq_length. f_equal. congruence. }
  rewrite (vec_get_ok zero (ps_master st) m); [|unfold dm_nr, dm_nc; rewrite Hsp; simpl; now rewrite andb_false_r|unfold inb; now rewrite (ob_len _ _ _ Ho)].
  cbn [rbind]. unfold dm_triu2symm, vals, dm_map, dm_nr, dm_nc. cbn [dm_sp]. rewrite Hsp. cbn [sp_nr sp_nc sp_dense].
  destruct (Nat.eqb_spec n 1); [contradiction|]. reflexivity.
Qed.
End P.

(** Symmetric entries made by [entry] without a sub-structure are stored as [SymmEntry] says. *)
Section Q.
Context {T : Type}.
Notation kwargs := (kwargs T).
Theorem entry_symm name (kw : kwargs) ce : NoDup (map fst kw) -> (forall k v, given kw k v -> ValOk v) ->
  entry_init name kw = Ok ce -> e_struct (ce_entry ce) = None -> SymmOk (ce_entry ce).
Proof.
  intros Hn Hok E Hst Es. destruct (entry_result name kw ce Hn E) as (_ & _ & (sp & Hs & Ht) & _ & _).
  assert (Hsp : SpOk sp).
  { destruct Hs as [e dims p sp He Hf Hm|e He|w m Hw Hm|w sp Hw Hwa|w l sp _ _ Ha Hw Hwl Hl|_ _ Ha Ha'].
    - specialize (Hok _ _ He). apply (FirstOf_ok _ _ _ Hf) in Hok. destruct Hm; simpl in Hok; auto. apply SpOk_dense.
    - apply SpOk_dense.
    - specialize (Hok _ _ Hw). destruct Hm; simpl in Hok; tauto.
    - specialize (Hok _ _ Hw). destruct Hwa; try apply SpOk_dense. exact Hok.
    - destruct Hl; apply SpOk_dense.
    - apply SpOk_dense. }
  inversion Ht as [sp0 _ E1 E2 E3 E4|sp0 n _ Hr Hc E1 E2 E3 E4]; [congruence|]. exists n, sp. split; auto.
  - rewrite <- E2. f_equal. apply filter_ext_in. intros [a b] Hp. destruct Hsp as [_ Hb]. rewrite Forall_forall in Hb. specialize (Hb _ Hp).
    simpl in *. destruct Hb as [_ Hb]. replace (b <? n) with true by (symmetry; apply Nat.ltb_lt; lia). apply andb_true_r.
Qed.
End Q.
