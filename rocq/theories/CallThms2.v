(** Assignments through callables (C102): what they change. *)
From Verif Require Import PyBase IndexModel DMModel StructModel StructSpec PowerModel PowerSpec
  IndexProofs StructProofs LayoutProofs LayoutThms LayoutExamples DMProofs PowerProofs PowerThms SliceProofs PowerThms2 PowerThms3 PowerThms4 SimThms ReadSpec ReadThms AssignSpec AssignThms CallSpec CallThms.
Open Scope list_scope. Open Scope nat_scope.

Section P.
Context {T : Type} (zero : T).
Notation rval := (rval T).
Notation pel := (pel T).
Notation pay := (pay T).
Notation env := (env T).
Notation einfo := (einfo T).
Notation pstate := (pstate T).
Notation clos := (@clos T).

Lemma leakfree_dispatch_ en p ci ex ei : ei_symm ei = false -> 
  leakfree (dispatch zero en MIM PayNone ci ex (Some ei)) (dispatch zero en MSet p ci ex (Some ei)).
Proof. apply leakfree_dispatch. Qed.

Lemma lf_fun en (m : mode -> pay -> @M T rval) g p : pure (m MIM p) -> (flatp p -> imle false (m MIM p) (m MIM PayNone)) ->
  leakfree (md' <- mlift (inner MIM) ;; r <- m md' PayNone ;; r' <- mlift (g r) ;; outer zero en MIM PayNone r')
           (md' <- mlift (inner MSet) ;; r <- m md' p ;; r' <- mlift (g r) ;; outer zero en MSet p r').
Proof.
  intros Hpu Hle sg sg' rr st st' r Hg Hw. unfold mbind, mlift in Hg, Hw. cbn [inner outer] in Hg, Hw.
  pose proof (Hpu st) as Hst. specialize (fun Hp => Hle Hp st sg). destruct (m MIM p st) as [s1 [r1|e1]]; simpl in Hst; subst s1; [|injection Hw as <- <-; apply unchanged_refl].
  destruct (g r1) as [r1'|] eqn:E1; [|injection Hw as <- <-; apply unchanged_refl].
  destruct r1' as [| |i|?|?|?]; try (injection Hw as <- <-; apply unchanged_refl).
  unfold mbind, mlift in Hw. destruct (to_mtype p) as [M|] eqn:EM; [|injection Hw as <- <-; apply unchanged_refl].
  specialize (Hle (to_mtype_flat p M EM)). cbn [snd] in Hle. destruct (m MIM PayNone sg) as [s2 r2]. cbn [snd] in Hle. subst r2. rewrite E1 in Hg. injection Hg as <- <-.
  destruct (master_set zero (en_kind en) i M st) as [s3 [u|e]] eqn:E; injection Hw as <- <-; simpl; eapply master_set_unchanged; eauto.
Qed.

Definition lfclosc (f : clos) : Prop := forall en pi ci p, sets_ok pi -> leakfree (f en MIM pi ci PayNone) (f en MSet pi ci p).

Lemma lfc_travD en ei sub : ei_symm ei = false -> (forall f, sub = Some f -> lfclosc f /\ imclos f /\ pclos f) ->
  forall dims pi ci p, sets_ok pi ->
  leakfree (travD zero en ei sub dims MIM pi ci PayNone) (travD zero en ei sub dims MSet pi ci p).
Proof.
  intros Hs Hsub. induction dims as [|d ds IH]; intros pi ci p Hnf.
  - simpl. apply leakfree_wrap. destruct pi; [now apply leakfree_dispatch|]. destruct sub as [f|]; [now apply (Hsub f eq_refl)|now apply leakfree_dispatch].
  - cbn [travD].
    assert (Hmany : forall l rest, sets_ok rest ->
       leakfree (rs <- mmapM (fun k => match k with
                     | KS _ => merr EType
                     | KI i => p' <- mlift (payloadUnpack PayNone k) ;;
                               travD zero en ei sub ds MIM rest (ci ++ [KI (canonical i d)]) p'
                     end) l ;; mret (RList rs))
                (rs <- mmapM (fun k => match k with
                     | KS _ => merr EType
                     | KI i => p' <- mlift (payloadUnpack p k) ;;
                               travD zero en ei sub ds MSet rest (ci ++ [KI (canonical i d)]) p'
                     end) l ;; mret (RList rs))).
    { intros l rest Hr. apply (leakfree_loop _ _ (fun b => b)); [intros bs b Hb; now apply positions_RList_in|].
      intros k Hk. exists k. split; [exact Hk|]. eapply leakfree_ext; [apply bind_ret_id|].
      destruct k as [n|i]; [apply leakfree_err|]. apply leakfree_bind_lift. intros p' _.
      eapply leakfree_ext; [|apply (IH rest _ p' Hr)]. reflexivity. }
    destruct pi as [|x rest]; apply leakfree_wrap.
    + apply leakfree_bind_lift2. intros l _. apply Hmany. constructor.
    + apply Forall_cons_iff in Hnf as [Hx Hr]. destruct x; try apply leakfree_err; try (now apply Hmany).
      * now apply IH.
      * apply leakfree_bind_lift2. intros l _. now apply Hmany.
      * apply Hmany. constructor; [exact I|constructor].
      * apply (lf_fun en (fun md q => travD zero en ei sub (d :: ds) md rest ci q)); [apply pure_travD; [intros f0 Hf; now apply Hsub|reflexivity]|intros Hp; apply (im_travD zero false en ei sub); [intros f0 Hf; now apply Hsub|exact Hp]].
Qed.

Lemma lfc_travS_body d keys : NoDup (map fst d) -> (forall k f, In (k, f) d -> lfclosc f /\ imclos f /\ pclos f) ->
  forall en pi ci p, sets_ok pi ->
  leakfree (travS_body zero d keys en MIM pi ci PayNone) (travS_body zero d keys en MSet pi ci p).
Proof.
  intros Hnd Hd en pi. induction pi as [|x rest IH]; intros ci p Hnf; cbn [travS_body]; apply leakfree_wrap.
  - apply leakfree_dispatch0.
  - apply Forall_cons_iff in Hnf as [Hx Hr].
    assert (Hdict : forall rest, sets_ok rest -> leakfree
        (mdict (mmapM (fun x => r <- snd x en MIM rest (ci ++ [KS (fst x)]) PayNone ;; mret (fst x, r)) d))
        (match p with
         | PayDict kv =>
            mdict (mmapM (fun x => f <- look d (fst x) ;;
                               r <- f en MSet rest (ci ++ [KS (fst x)]) (snd x) ;; mret (fst x, r)) kv)
         | _ => mdict (mmapM (fun x => r <- snd x en MSet rest (ci ++ [KS (fst x)]) p ;; mret (fst x, r)) d)
         end)).
    { clear rest IH Hr. intros rest Hr.
      assert (Hkey : forall (a : string * clos) s s' b,
         (r <- snd a en MIM rest (ci ++ [KS (fst a)]) PayNone ;; mret (fst a, r)) s = (s', Ok b) -> fst b = fst a).
      { intros a s s' b. unfold mbind. destruct (snd a en MIM rest (ci ++ [KS (fst a)]) PayNone s) as [s1 [r1|]]; [|discriminate].
        intros [= <- <-]. reflexivity. }
      destruct p as [| | |l|kv|p']; try (apply (leakfree_dict _ _ _ _ fst Hnd Hkey); intros [k f] Hin; right; exists (k, f);
           split; [exact Hin|]; simpl; apply leakfree_snd; now apply (Hd k f)).
      apply (leakfree_dict _ _ _ _ fst Hnd Hkey). intros [k v] Hin. simpl. unfold look.
      destruct (dict_get k d) as [f|] eqn:E; [right|left; intros; reflexivity].
      exists (k, f). split; [now apply dict_get_In|]. cbn [fst snd].
      intros sg sg' rr st st' r Hg Hw. rewrite mbind_ret in Hw || idtac.
      eapply (leakfree_snd _ _ k k (proj1 (Hd k f (dict_get_In _ _ _ E)) en rest (ci ++ [KS k]) v Hr)); eauto. }
    destruct x; try apply leakfree_err; try (now apply Hdict).
    + apply lf_look_bind2. intros f Hf. apply (Hd _ _ (dict_get_In _ _ _ Hf)). exact Hr.
    + apply (leakfree_loop _ _ (fun b => b)); [intros bs b Hb; now apply positions_RList_in|].
      intros [i k] Hik. exists (i, k). split; [exact Hik|]. eapply leakfree_ext; [apply bind_ret_id|].
      apply leakfree_bind_lift. intros p' _. eapply leakfree_ext; [|apply (IH (ci ++ [k]) p' Hr)]. reflexivity.
    + apply (leakfree_loop _ _ (fun b => b)); [intros bs b Hb; now apply positions_RList_in|].
      intros [i k] Hik. exists (i, k). split; [exact Hik|]. eapply leakfree_ext; [apply bind_ret_id|].
      simpl. apply lf_look_bind2. intros f Hf. apply leakfree_bind_lift. intros p' _.
      eapply leakfree_ext; [|apply (proj1 (Hd _ _ (dict_get_In _ _ _ Hf)) en rest (ci ++ [KS k]) p' Hr)]; reflexivity.
    + assert (Hkey : forall (a : string) s s' b,
         (f <- look d a ;; r <- f en MIM rest (ci ++ [KS a]) PayNone ;; mret (a, r)) s = (s', Ok b) -> fst b = a).
      { intros a s s' b. unfold mbind, look. destruct (dict_get a d) as [f|]; [|discriminate]. simpl.
        destruct (f en MIM rest (ci ++ [KS a]) PayNone s) as [s1 [r1|]]; [|discriminate].
        intros [= <- <-]. reflexivity. }
      assert (Hnn : NoDup (map (fun k : string => k) l)) by (rewrite map_id; exact Hx).
      assert (Hone : forall k v, leakfree
          (b <- (f <- look d k ;; r <- f en MIM rest (ci ++ [KS k]) PayNone ;; mret (k, r)) ;; mret (snd b))
          (b <- (f <- look d k ;; r <- f en MSet rest (ci ++ [KS k]) v ;; mret (k, r)) ;; mret (snd b))).
      { intros k v sg sg' rr st st' r Hg Hw. unfold look in Hg, Hw. destruct (dict_get k d) as [f|] eqn:E; [|discriminate].
        eapply (leakfree_snd _ _ k k (proj1 (Hd k f (dict_get_In _ _ _ E)) en rest (ci ++ [KS k]) v Hr)); eauto. }
      destruct p as [| | |l0|kv|p']; try (apply (leakfree_dict _ _ _ _ (fun k => k) Hnn Hkey); intros k Hin; right; exists k; auto).
      apply (leakfree_dict _ _ _ _ (fun k => k) Hnn Hkey). intros [k v] Hin. apply filter_In in Hin as [_ Hin].
      right. exists k. split; [now apply str_mem_In|]. apply (Hone k v).
    + apply Hdict. repeat constructor.
    + apply (lf_fun en (fun md q => travS_body zero d keys en md rest ci q)); [apply pure_travS_body; [intros k f0 Hf; now apply (Hd k f0)|reflexivity]|]. intros Hp. apply (im_body zero false d keys); [|exact Hp]. intros k f0 Hf. now apply (Hd k f0).
Qed.

Lemma lfc_travS s : NoSymm s -> lfclosc (travS zero s).
Proof.
  induction s as [es order IH] using structure_ind2. intros Hns en pi ci p Hnf. rewrite !travS_eq.
  apply (lfc_travS_body (sdictT zero (mkStruct es order))); [apply NoDup_pydict| |exact Hnf].
  intros k f Hin. apply in_sdict in Hin as (e & He & _ & ->). inversion Hns as [es' order' H1 H2]; subst.
  assert (Hsub : forall f, subT zero e = Some f -> lfclosc f /\ imclos f /\ pclos f).
  { unfold subT. intros f. destruct (e_struct e) as [s'|] eqn:Es; [|discriminate]. intros [= <-]. split; [eapply IH; eauto|]. split; [apply im_travS|apply pure_travS]. }
  split; [|split].
  - intros en' pi' ci' p' Hm'. rewrite !travE_eq. apply lfc_travD; [now apply H1|exact Hsub|exact Hm'].
  - intros b en' pi' ci' p' Hp'. eapply imle_ext; [intros; rewrite travE_eq; reflexivity|intros; rewrite travE_eq; reflexivity|]. apply im_travD; [|exact Hp']. intros f Hf. now apply Hsub.
  - apply pure_travE.
Qed.

Theorem writes_call s c (st st' : pstate) pi v rr r :
  casadi_structure s = Ok c -> NoSymm s -> sets_ok pi -> i_get zero s pi = Ok rr ->
  setitem zero s (num_env c) pi v st = (st', r) -> unchanged (positions rr) st st'.
Proof.
  intros Hc Hns Hnf Hi Hset. destruct (i_get_run zero s c pi rr Hc Hi) as (sg' & E).
  eapply (lfc_travS s Hns (num_env c) pi [] v Hnf); eauto.
Qed.

(** ** One callable behind a path *)
(** What the assignment does, given the positions. *)
Definition assigned (J : dm nat) (W : dm T) (st : pstate) : pstate * res rval :=
  match vec_set zero (ps_master st) J W with Ok v => (with_master st v, Ok RNone) | Err _ => (st, Err EException) end.
Definition wx (W : dm T) (im wr : @M T rval) : Prop := forall sg st,
  wr st = match snd (im sg) with Ok (RIdx J) => assigned J W st | _ => (st, Err EException) end.

Lemma wx_wrap W im wr : wx W im (mwrap wr) -> wx W (mwrap im) (mwrap wr).
Proof. intros H sg st. rewrite (H sg st), mwrap_snd. destruct (snd (im sg)) as [[]|]; reflexivity. Qed.
Lemma assigned_wrap J W st : match assigned J W st with (s', Ok a) => (s', Ok a) | (s', Err _) => (s', Err EException) end = assigned J W st.
Proof. unfold assigned. destruct (vec_set _ _ _ _); reflexivity. Qed.
Lemma wx_wrap2 W im wr : wx W im wr -> wx W im (mwrap wr).
Proof. intros H sg st. unfold mwrap. rewrite (H sg st). destruct (snd (im sg)) as [[]|]; try reflexivity. apply assigned_wrap. Qed.
Lemma wx_wraps W im wr : wx W im wr -> wx W (mwrap im) (mwrap wr).
Proof. intros H. now apply wx_wrap, wx_wrap2. Qed.

Lemma wx_dispatch en p W ci ex ei : en_kind en = KPlain -> to_mtype p = Ok W -> is_symm ei = false ->
  wx W (dispatch zero en MIM PayNone ci ex ei) (mwrap (dispatch zero en MSet p ci ex ei)).
Proof.
  intros Hk Hp Hs sg st. unfold mwrap. cbn [dispatch]. unfold setter, mbind, mlift, imget. cbn [snd]. rewrite Hp. destruct (cmap_get ci (en_map en)) as [mi|]; [|reflexivity].
  destruct (performExtraIndex ei false (RIdx mi) (extra ex)) as [[| |J| | |]|]; try reflexivity. rewrite Hs, Hk. unfold master_set, assigned. destruct (vec_set _ _ _ _); reflexivity.
Qed.

Lemma wx_fun en (m : mode -> pay -> @M T rval) g p W : en_kind en = KPlain -> to_mtype p = Ok W -> pure (m MIM p) -> imle true (m MIM p) (m MIM PayNone) ->
  wx W (md' <- mlift (inner MIM) ;; r <- m md' PayNone ;; r' <- mlift (g r) ;; outer zero en MIM PayNone r')
       (mwrap (md' <- mlift (inner MSet) ;; r <- m md' p ;; r' <- mlift (g r) ;; outer zero en MSet p r')).
Proof.
  intros Hk Hp Hpu Hle sg st. specialize (Hle st sg). unfold mwrap, mbind, mlift. cbn [inner outer]. pose proof (Hpu st) as Hst.
  destruct (m MIM p st) as [s1 [r1|e1]]; simpl in Hst, Hle; subst s1.
  - destruct (m MIM PayNone sg) as [s2 r2]. simpl in Hle. subst r2. destruct (g r1) as [[| |J| | |]|]; try reflexivity.
    cbn [snd]. unfold mret. cbn [snd]. rewrite Hp. unfold mbind, mlift, master_set, assigned. rewrite Hk. cbn [snd]. destruct (vec_set _ _ _ _); reflexivity.
  - destruct (Hle eq_refl) as (e' & He'). destruct (m MIM PayNone sg) as [s2 r2]. simpl in He'. subst r2. reflexivity.
Qed.

Definition wxclos (f : clos) : Prop := forall en pre g post ci p W, en_kind en = KPlain -> to_mtype p = Ok W -> simple p -> path pre ->
  wx W (f en MIM (pre ++ PFun g :: post) ci PayNone) (f en MSet (pre ++ PFun g :: post) ci p).

Lemma path_head x pre : @path T (x :: pre) -> path pre.
Proof. intros H. now apply Forall_cons_iff in H. Qed.

Lemma wx_travD en ei sub : en_kind en = KPlain -> ei_symm ei = false -> (forall f, sub = Some f -> wxclos f /\ imclos f /\ pclos f) ->
  forall dims pre g post ci p W, to_mtype p = Ok W -> simple p -> path pre ->
  wx W (travD zero en ei sub dims MIM (pre ++ PFun g :: post) ci PayNone) (travD zero en ei sub dims MSet (pre ++ PFun g :: post) ci p).
Proof.
  intros Hk Hs Hsub. induction dims as [|d ds IH]; intros pre g post ci p W Hp Hsi Hpa.
  - cbn [travD]. destruct (pre ++ PFun g :: post) as [|x xs] eqn:E; [now destruct pre|]. rewrite <- E.
    destruct sub as [f|]; [apply wx_wraps; now apply (Hsub f eq_refl)|]. now apply wx_wrap, wx_dispatch.
  - destruct pre as [|x pre].
    + cbn [app]. intros sg st. rewrite !travD_fun. revert sg st. apply wx_wrap.
      apply (wx_fun en (fun md q => travD zero en ei sub (d :: ds) md post ci q)); auto; [apply pure_travD; [intros f Hf; now apply Hsub|reflexivity]|].
      apply (im_travD zero true en ei sub); [intros f Hf; now apply Hsub|exact Hsi].
    + pose proof (Forall_inv Hpa) as Hx. apply path_head in Hpa. destruct x; try contradiction; cbn [app travD].
      * intros sg st. reflexivity.
      * apply wx_wraps. now apply IH.
Qed.

Lemma wx_travS s : NoSymm s -> wxclos (travS zero s).
Proof.
  induction s as [es order IH] using structure_ind2. intros Hns en pre g post ci p W Hk Hp Hsi Hpa. inversion Hns as [es' order' H1 H2]; subst.
  assert (Hsub : forall e, In e es -> forall f, subT zero e = Some f -> wxclos f /\ imclos f /\ pclos f).
  { unfold subT. intros e He f. destruct (e_struct e) as [s'|] eqn:Es; [|discriminate]. intros [= <-]. split; [eapply IH; eauto|]. split; [apply im_travS|apply pure_travS]. }
  intros sg st. rewrite !travS_eq. revert sg st. destruct pre as [|x pre].
  - cbn [app travS_body]. apply wx_wrap.
    apply (wx_fun en (fun md q => travS_body zero (sdictT zero (mkStruct es order)) (s_keys (mkStruct es order)) en md post ci q)); auto.
    + intros st. rewrite <- travS_eq. now apply pure_travS.
    + intros st st'. rewrite <- !travS_eq. now apply (im_travS zero (mkStruct es order) true).
  - pose proof (Forall_inv Hpa) as Hx. apply path_head in Hpa. destruct x; try contradiction; cbn [app travS_body].
    + apply wx_wraps. unfold look. destruct (dict_get s (sdictT zero (mkStruct es order))) as [f|] eqn:E; [|intros sg st; reflexivity].
      apply dict_get_In, in_sdict in E as (e & He & _ & ->). intros sg st. unfold mbind, mret. rewrite !travE_eq. revert sg st. apply wx_travD; auto; [now apply H1|exact (Hsub e He)].
    + intros sg st. reflexivity.
Qed.

(** Reading back. *)
Theorem write_call s c (st : pstate) pre f post p W :
  Obj s c st -> NoSymm s -> path pre -> (exists x, p = PayNum x) \/ (exists m, p = PayMat m) -> to_mtype p = Ok W -> DmOk W ->
  (forall J, i_get zero s (pre ++ PFun f :: post) = Ok (RIdx J) -> DmOk J -> Forall (fun k => k < cs_size c) (dm_nz J) ->
     (fits W (dm_sp J) -> exists v', setitem zero s (num_env c) (pre ++ PFun f :: post) p st = (PState v' (ps_mirror st) (ps_storage st), Ok RNone) /\
        unchanged (dm_nz J) st (PState v' (ps_mirror st) (ps_storage st)) /\
        (NoDup (dm_nz J) -> Values v' (RIdx J) (RMat (DM (dm_sp J) (map (fit zero W (dm_sp J)) (sp_pat (dm_sp J))))))) /\
     (~ fits W (dm_sp J) -> setitem zero s (num_env c) (pre ++ PFun f :: post) p st = (st, Err EException))) /\
  ((forall J, i_get zero s (pre ++ PFun f :: post) <> Ok (RIdx J)) -> setitem zero s (num_env c) (pre ++ PFun f :: post) p st = (st, Err EException)).
Proof.
  intros Ho Hns Hpa Hp HM HmM.
  assert (Hsi : simple p) by (destruct Hp as [(x & ->)|(m & ->)]; exact I).
  pose proof (wx_travS s Hns (num_env c) pre f post [] p W eq_refl HM Hsi Hpa empty_state st) as E. fold (setitem zero s (num_env c) (pre ++ PFun f :: post) p st) in E.
  assert (Ei : i_get zero s (pre ++ PFun f :: post) = snd (travS zero s (num_env c) MIM (pre ++ PFun f :: post) [] PayNone empty_state)).
  { unfold i_get, index_getter, num_env. rewrite (ob_built _ _ _ Ho). cbn [rbind]. destruct (snd _); reflexivity. }
  rewrite <- Ei in E. split.
  - intros J HJ HoJ Hb. rewrite HJ in E. unfold assigned in E.
    assert (Hin : inb (ps_master st) J) by (unfold inb; rewrite (ob_len _ _ _ Ho); exact Hb).
    destruct (vec_set_ok zero (ps_master st) J W HoJ HmM Hin) as [[Hf Ev]|[Hf Ev]]; rewrite Ev in E; (split; [|]); try contradiction; intros _ || (intros Hf'; contradiction); [|exact E].
    eexists. split; [exact E|]. split.
    + split; cbn [ps_master]; [apply vec_set_list_length|]. intros k Hk. now apply vec_set_list_other.
    + intros Hn. constructor. pose proof (vec_set_list_vals zero (dm_nz J) (ps_master st) (map (fit zero W (dm_sp J)) (sp_pat (dm_sp J))) Hn Hin) as E'.
      match type of E' with _ -> map _ ?ks = ?xs => pose proof (vals_Forall2 zero (vec_set_list (ps_master st) ks xs) ks) as G end.
      rewrite E' in G by (rewrite map_length; symmetry; apply HoJ). apply G. rewrite vec_set_list_length. exact Hin.
  - intros Hno. rewrite E. destruct (i_get zero s _) as [[| |J| | |]|]; try reflexivity. exfalso. now apply (Hno J).
Qed.

Lemma apply_path pre f (r : rval) : path pre -> apply_at pre f r = f r.
Proof. induction 1 as [|x l Hx H IH]; [reflexivity|]. destruct x; try contradiction; exact IH. Qed.

Lemma nth_Forall2_fun (v : list T) l a b : Forall2 (fun k x => nth_error v k = Some x) l a -> Forall2 (fun k x => nth_error v k = Some x) l b -> a = b.
Proof. intros H. revert b. induction H as [|k x l a Hk H IH]; intros b Hb; inversion Hb; subst; [reflexivity|]. f_equal; [congruence|]. now apply IH. Qed.

(** A callable that only selects shows what was written through it. *)
Theorem call_read_back s c (st : pstate) pre f post p W J :
  Obj s c st -> NoSymm s -> path pre -> Above s pre -> no_fun post -> selects f ->
  (exists x, p = PayNum x) \/ (exists m, p = PayMat m) -> to_mtype p = Ok W -> DmOk W ->
  i_get zero s (pre ++ PFun f :: post) = Ok (RIdx J) -> DmOk J -> Forall (fun k => k < cs_size c) (dm_nz J) -> NoDup (dm_nz J) -> fits W (dm_sp J) ->
  exists st', setitem zero s (num_env c) (pre ++ PFun f :: post) p st = (st', Ok RNone) /\
    getitem zero s (num_env c) (pre ++ PFun f :: post) st' = Ok (RMat (DM (dm_sp J) (map (fit zero W (dm_sp J)) (sp_pat (dm_sp J))))).
Proof.
  intros Ho Hns Hpa Hab Hnf Hf Hp HW HoW HJ HoJ Hb Hn Hfit.
  destruct (proj1 (write_call s c st pre f post p W Ho Hns Hpa Hp HW HoW) J HJ HoJ Hb) as [H _]. destruct (H Hfit) as (v' & E & [Hl _] & HV). clear H. specialize (HV Hn).
  eexists. split; [exact E|]. rewrite (getitem_call zero s _ pre f post _ Hab).
  rewrite (i_get_call zero s c pre f post (ob_built _ _ _ Ho) Hab) in HJ.
  destruct (i_get zero s (pre ++ post)) as [r0|] eqn:E0; [|discriminate]. cbn [rbind] in HJ. rewrite apply_path in HJ by exact Hpa.
  destruct (f r0) as [j|] eqn:Ef; [|discriminate]. injection HJ as ->.
  assert (Ho' : Obj s c (PState v' (ps_mirror st) (ps_storage st))) by (destruct Ho; constructor; cbn [ps_master] in *; congruence).
  assert (Hnf' : no_fun (pre ++ post)) by (apply Forall_app; split; [|exact Hnf]; eapply Forall_impl; [|exact Hpa]; intros []; simpl; tauto).
  destruct (getitem_defined zero s c _ _ _ Ho' Hns Hnf' E0) as (R0 & -> & HV0). cbn [rbind ps_master] in *. rewrite apply_path by exact Hpa.
  destruct (Hf v' r0 R0 J Ef HV0) as (R' & -> & HR'). inversion HV as [m nz F E1 E2| |]; subst. inversion HR' as [m' nz' F' E1' E2'| |]; subst.
  simpl. do 3 f_equal. eapply nth_Forall2_fun; eauto.
Qed.

(** ** A callable on the matrix of an entry *)
Theorem leaf_call s c (st : pstate) ci e f post J R :
  Obj s c st -> At s ci e -> e_struct e = None -> e_symm e = false ->
  i_get zero s (pidx ci ++ PFun f :: post) = Ok (RIdx J) -> DmOk J -> Forall (fun k => k < cs_size c) (dm_nz J) ->
  (getitem zero s (num_env c) (pidx ci ++ PFun f :: post) st = Ok R <-> Values (ps_master st) (RIdx J) R).
Proof.
  intros Ho Hat Hst Hs HJ HoJ Hb. pose proof (ob_wf _ _ _ Ho) as Hw.
  assert (Hin : inb (ps_master st) J) by (unfold inb; rewrite (ob_len _ _ _ Ho); exact Hb).
  unfold i_get, index_getter in HJ. rewrite (ob_built _ _ _ Ho) in HJ. cbn [rbind] in HJ. fold (@num_env T c) in HJ.
  unfold getitem. rewrite (travS_at zero s ci e Hat Hw) in *. unfold endD, subT in *. rewrite Hst in *. cbn [app] in *.
  rewrite mwrap_snd in *. cbn [dispatch] in *. unfold mlift, imget in HJ. unfold getter. cbn [num_env en_map en_pmap snd] in *.
  destruct (cmap_get ci (cs_map c)) as [mi|]; [|discriminate].
  destruct (performExtraIndex (Some (info zero e)) false (RIdx mi) (extra (Some (PFun f :: post)))) as [j|] eqn:E; [|discriminate]. injection HJ as ->.
  cbn [extra]. unfold mbind, mlift, get_master. cbn [snd]. replace (is_symm (Some (info zero e))) with false by (symmetry; exact Hs).
  unfold correct_vector_indexing. rewrite (cvi_ok zero _ _ (proj1 HoJ) Hin). simpl. split.
  - intros [= <-]. unfold vals. constructor. apply (vals_Forall2 zero). exact Hin.
  - intros HR. inversion HR as [m nz F E1 E2| |]; subst. f_equal. f_equal. apply (Forall2_vals zero) in F as [_ ->]. reflexivity.
Qed.

Theorem leaf_index s c ci e f post : Wf s -> casadi_structure s = Ok c -> At s ci e -> e_struct e = None ->
  i_get zero s (pidx ci ++ PFun f :: post) = raised (let* r := i_get zero s (pidx ci ++ post) in f r).
Proof.
  intros Hw Hc Hat Hst. unfold i_get, index_getter. rewrite Hc. cbn [rbind]. rewrite !(travS_at zero s ci e Hat Hw). unfold endD, subT. rewrite Hst. cbn [app].
  rewrite !mwrap_snd. cbn [dispatch]. unfold mlift, imget. cbn [snd en_map].
  destruct (cmap_get ci (cs_map c)) as [mi|]; [|destruct post; reflexivity]. destruct post as [|x post]; cbn [snd extra].
  - cbn [performExtraIndex rbind wrapE]. destruct (f (RIdx mi)); reflexivity.
  - change (performExtraIndex (Some (info zero e)) false (RIdx mi) (PFun f :: x :: post)) with (let* r := performExtraIndex (Some (info zero e)) false (RIdx mi) (x :: post) in f r).
    destruct (performExtraIndex (Some (info zero e)) false (RIdx mi) (x :: post)) as [r|]; [|reflexivity]. cbn [rbind wrapE]. destruct (f r); reflexivity.
Qed.
End P.
