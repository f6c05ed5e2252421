(** Theorems about reads and writes by index (C10-C19, C28). *)
From Verif Require Import PyBase IndexModel DMModel StructModel StructSpec PowerModel PowerSpec
  IndexProofs StructProofs LayoutProofs LayoutThms LayoutExamples DMProofs PowerProofs.

Section P.
Context {T : Type} (zero : T).
Notation rval := (rval T).
Notation pel := (pel T).
Notation pay := (pay T).
Notation env := (env T).
Notation einfo := (einfo T).
Notation pstate := (pstate T).
Notation clos := (@clos T).

(** ** C10 *)
Lemma i_get_at s c ci e : Wf s -> casadi_structure s = Ok c -> At s ci e ->
  i_get zero s (pidx ci) = match cmap_get ci (cs_map c) with Some m => Ok (RIdx m) | None => Err EException end.
Proof.
  intros Hw Hc Ha. unfold i_get, index_getter. rewrite Hc. cbn [rbind].
  rewrite <- (app_nil_r (pidx ci)), (travS_at zero s ci e Ha Hw). simpl. unfold mwrap, imget. simpl.
  destruct (cmap_get ci (cs_map c)); reflexivity.
Qed.

Lemma i_get_inv s c ci e m : Wf s -> casadi_structure s = Ok c -> At s ci e -> i_get zero s (pidx ci) = Ok (RIdx m) ->
  cmap_get ci (cs_map c) = Some m.
Proof.
  intros Hw Hc Ha. rewrite (i_get_at s c ci e Hw Hc Ha). destruct (cmap_get ci (cs_map c)); [|discriminate]. now intros [= ->].
Qed.

Lemma Obj_with_master s c (st : pstate) (v : list T) : Obj s c st -> length v = length (ps_master st) -> Obj s c (with_master st v).
Proof. intros [H1 H2 H3] Hl. split; auto. simpl. congruence. Qed.

Theorem read_after_write s c st ci e m v M st' r :
  Obj s c st -> At s ci e -> e_symm e = false -> i_get zero s (pidx ci) = Ok (RIdx m) ->
  pay_ok v -> to_mtype v = Ok M ->
  setitem zero s (num_env c) (pidx ci) v st = (st', Ok r) ->
  fits M (dm_sp m) /\
  exists R, getitem zero s (num_env c) (pidx ci) st' = Ok (RMat R) /\ dm_sp R = dm_sp m /\
    (forall p, In p (sp_pat (dm_sp m)) -> dm_at R p = Some (fit zero M (dm_sp m) p)) /\
    (dm_sp M = dm_sp m -> R = M).
Proof.
  intros Ho Ha Hs Hi Hv HM Hset. pose proof (i_get_inv s c ci e m (ob_wf _ _ _ Ho) (ob_built _ _ _ Ho) Ha Hi) as Hm.
  destruct (map_ok s c ci m (ob_wf _ _ _ Ho) (ob_built _ _ _ Ho) Hm) as (_ & Hok & Hnd & Hb & _).
  destruct (setitem_at zero s c st ci e m v M Ho Ha Hs Hm Hv HM) as [[Hf E]|[_ E]]; [|congruence].
  rewrite E in Hset. injection Hset as <- <-. split; [exact Hf|].
  set (v' := vec_set_list _ _ _).
  assert (Ho' : Obj s c (with_master st v')) by (apply Obj_with_master; [exact Ho|apply vec_set_list_length]).
  eexists. split; [apply (getitem_at zero s c _ ci e m Ho' Ha Hs Hm)|]. split; [reflexivity|]. simpl ps_master.
  assert (En : dm_nz (vals zero v' m) = map (fit zero M (dm_sp m)) (sp_pat (dm_sp m))).
  { simpl. unfold v'. apply vec_set_list_vals; [exact Hnd|now rewrite (ob_len _ _ _ Ho)|].
    rewrite map_length. destruct Hok as [_ Hl]. symmetry. exact Hl. }
  split.
  - intros p Hp. unfold dm_at. rewrite En. change (dm_sp (vals zero v' m)) with (dm_sp m). rewrite pos_assoc_fun.
    apply pos_mem_In in Hp. now rewrite Hp.
  - intros Esp. assert (HM' : DmOk M) by (eapply to_mtype_ok; eauto).
    destruct M as [sp nz]. cbn [dm_sp] in Esp. subst sp. unfold vals, dm_map in En |- *. cbn [dm_nz] in En. rewrite En. f_equal.
    pose proof (nz_vals zero _ HM') as En'. cbn [dm_nz dm_sp] in En'. etransitivity; [|symmetry; exact En']. apply map_ext_in. intros p Hp. unfold fit.
    unfold dm_nr, dm_nc. cbn [dm_sp]. rewrite !Nat.eqb_refl. simpl. destruct (dm_is_scalar _) eqn:Es; [|reflexivity].
    unfold dm_is_scalar, dm_nr, dm_nc in Es. cbn [dm_sp] in Es. apply andb_true_iff in Es as [E1 E2]. apply Nat.eqb_eq in E1, E2.
    destruct Hok as [[_ Hbd] _]. rewrite Forall_forall in Hbd. specialize (Hbd p Hp). destruct p as [a b]. cbn [fst snd] in Hbd.
    f_equal. f_equal; lia.
Qed.

Theorem write_succeeds_iff s c st ci e m v M :
  Obj s c st -> At s ci e -> e_symm e = false -> i_get zero s (pidx ci) = Ok (RIdx m) ->
  pay_ok v -> to_mtype v = Ok M ->
  ((exists st' r, setitem zero s (num_env c) (pidx ci) v st = (st', Ok r)) <-> fits M (dm_sp m)).
Proof.
  intros Ho Ha Hs Hi Hv HM. pose proof (i_get_inv s c ci e m (ob_wf _ _ _ Ho) (ob_built _ _ _ Ho) Ha Hi) as Hm.
  destruct (setitem_at zero s c st ci e m v M Ho Ha Hs Hm Hv HM) as [[Hf E]|[Hf E]]; rewrite E.
  - split; [auto|]. eauto.
  - split; [intros (? & ? & H); discriminate|contradiction].
Qed.

(** ** C11 *)
Definition unchanged (l : list nat) (st st' : pstate) : Prop :=
  length (ps_master st') = length (ps_master st) /\
  forall k, ~ In k l -> nth_error (ps_master st') k = nth_error (ps_master st) k.

Lemma unchanged_refl l st : unchanged l st st.
Proof. split; auto. Qed.
Lemma unchanged_trans l a b d : unchanged l a b -> unchanged l b d -> unchanged l a d.
Proof. intros [H1 H2] [H3 H4]. split; [congruence|]. intros k Hk. rewrite H4, H2; auto. Qed.
Lemma unchanged_incl l l' a b : incl l l' -> unchanged l a b -> unchanged l' a b.
Proof. intros Hi [H1 H2]. split; [exact H1|]. intros k Hk. apply H2. intros H. apply Hk, Hi, H. Qed.

Lemma master_set_unchanged k i m st st' r : master_set zero k i m st = (st', r) -> unchanged (dm_nz i) st st'.
Proof.
  unfold master_set. destruct k.
  - destruct (vec_set zero (ps_master st) i m) as [v|] eqn:E; intros [= <- <-]; [|apply unchanged_refl].
    split; simpl; [eapply vec_assign_length; eauto|]. intros k Hk. eapply vec_assign_other; eauto.
  - destruct (vec_set_nz zero (ps_master st) i m) as [v|] eqn:E; intros [= <- <-]; [|apply unchanged_refl].
    split; simpl; [eapply vec_assign_length; eauto|]. intros k Hk. eapply vec_assign_other; eauto.
  - destruct (vec_set_nz zero (ps_master st) i m) as [v|] eqn:E; intros [= <- <-]; [|apply unchanged_refl].
    split; simpl; [eapply vec_assign_length; eauto|]. intros k Hk. eapply vec_assign_other; eauto.
Qed.

(** A run of the setter changes only what a run of the index getter lists. *)
Definition leakfree (g : @M T rval) (w : @M T rval) : Prop :=
  forall sg sg' rr st st' r, g sg = (sg', Ok rr) -> w st = (st', r) -> unchanged (positions rr) st st'.

Lemma leakfree_wrap g w : leakfree g w -> leakfree (mwrap g) (mwrap w).
Proof.
  intros H sg sg' rr st st' r Hg Hw. apply (proj1 (mwrap_Ok _ _ _ _)) in Hg. unfold mwrap in Hw.
  destruct (w st) as [s1 [a|x]] eqn:E; injection Hw as <- <-; (eapply H; [exact Hg|exact E]).
Qed.

Lemma leakfree_dispatch en p ci ex ei : ei_symm ei = false -> 
  leakfree (dispatch zero en MIM PayNone ci ex (Some ei)) (dispatch zero en MSet p ci ex (Some ei)).
Proof.
  intros Hs sg sg' rr st st' r Hg Hw. simpl in Hg, Hw. unfold mlift, imget in Hg. injection Hg as <- Hg.
  unfold setter, mbind, mlift in Hw. destruct (to_mtype p) as [m|]; [|injection Hw as <- <-; apply unchanged_refl].
  destruct (cmap_get ci (en_map en)) as [mi|]; [|discriminate].
  rewrite Hg in Hw. destruct rr; try (injection Hw as <- <-; apply unchanged_refl).
  simpl in Hw. rewrite Hs in Hw. destruct (master_set zero (en_kind en) m0 m st) as [s1 [u|x]] eqn:E; injection Hw as <- <-;
    simpl; eapply master_set_unchanged; eauto.
Qed.
Lemma leakfree_dispatch0 en p ci ex : 
  leakfree (dispatch zero en MIM PayNone ci ex None) (dispatch zero en MSet p ci ex None).
Proof.
  intros sg sg' rr st st' r Hg Hw. simpl in Hg, Hw. unfold mlift, imget in Hg. injection Hg as <- Hg.
  unfold setter, mbind, mlift in Hw. destruct (to_mtype p) as [m|]; [|injection Hw as <- <-; apply unchanged_refl].
  destruct (cmap_get ci (en_map en)) as [mi|]; [|discriminate].
  rewrite Hg in Hw. destruct rr; try (injection Hw as <- <-; apply unchanged_refl).
  simpl in Hw. destruct (master_set zero (en_kind en) m0 m st) as [s1 [u|x]] eqn:E; injection Hw as <- <-;
    simpl; eapply master_set_unchanged; eauto.
Qed.

(** Loops: the written elements are among the listed ones. *)
Lemma mmapM_Ok {A B} (f : A -> @M T B) l : forall st st' bs, mmapM f l st = (st', Ok bs) ->
  Forall2 (fun a b => exists s s', f a s = (s', Ok b)) l bs.
Proof.
  induction l as [|a l IH]; intros st st' bs H; simpl in H.
  - injection H as <- <-. constructor.
  - unfold mbind in H. destruct (f a st) as [s1 [b|x]] eqn:E; [|discriminate].
    destruct (mmapM f l s1) as [s2 [bs'|x]] eqn:E2; [|discriminate]. injection H as <- <-.
    constructor; [eauto|]. eapply IH; eauto.
Qed.

Lemma mmapM_unchanged {A B} (f : A -> @M T B) L l :
  (forall a st st' r, In a l -> f a st = (st', r) -> unchanged L st st') ->
  forall st st' r, mmapM f l st = (st', r) -> unchanged L st st'.
Proof.
  induction l as [|a l IH]; intros H st st' r Hr; simpl in Hr.
  - injection Hr as <- <-. apply unchanged_refl.
  - unfold mbind in Hr. destruct (f a st) as [s1 [b|x]] eqn:E.
    + apply (unchanged_trans _ _ s1); [eapply H; eauto; now left|].
      destruct (mmapM f l s1) as [s2 [bs'|x]] eqn:E2; injection Hr as <- <-; eapply IH; eauto; intros; eapply H; eauto; now right.
    + injection Hr as <- <-. eapply H; eauto. now left.
Qed.

Lemma leakfree_loop {A B C} (fg : A -> @M T B) (fw : C -> @M T rval) (proj : B -> rval) (lg : list A) (lw : list C) 
      (kg : list B -> rval) (kw : list rval -> rval) :
  (forall bs b, In b bs -> incl (positions (proj b)) (positions (kg bs))) ->
  (forall c, In c lw -> exists a, In a lg /\ leakfree (b <- fg a ;; mret (proj b)) (fw c)) ->
  leakfree (bs <- mmapM fg lg ;; mret (kg bs)) (rs <- mmapM fw lw ;; mret (kw rs)).
Proof.
  intros Hk Hl sg sg' rr st st' r Hg Hw. unfold mbind in Hg, Hw.
  destruct (mmapM fg lg sg) as [s1 [bs|x]] eqn:E; [|discriminate]. injection Hg as <- <-.
  assert (G : unchanged (positions (kg bs)) st (fst (mmapM fw lw st))).
  { destruct (mmapM fw lw st) as [s2 r2] eqn:E2. simpl. eapply (mmapM_unchanged fw); [|exact E2].
    intros c st1 st1' r1 Hc Hr1. destruct (Hl c Hc) as (a & Ha & Hlf).
    apply mmapM_Ok in E. destruct (Forall2_In_l _ _ _ a E Ha) as (b & Hb & (sa & sa' & Hfa)).
    apply (unchanged_incl (positions (proj b))); [now apply Hk|]. eapply (Hlf sa sa'); [|exact Hr1].
    unfold mbind. rewrite Hfa. reflexivity. }
  destruct (mmapM fw lw st) as [s2 [rs|x]]; injection Hw as <- <-; exact G.
Qed.

Definition lfclos (f : clos) : Prop := forall en pi ci p, no_fun pi -> leakfree (f en MIM pi ci PayNone) (f en MSet pi ci p).

Lemma leakfree_err g e : leakfree g (merr e).
Proof. intros sg sg' rr st st' r _ [= <- <-]. apply unchanged_refl. Qed.

Lemma leakfree_bind_lift {A} g (ra : res A) k : (forall a, ra = Ok a -> leakfree g (k a)) -> leakfree g (mbind (mlift ra) k).
Proof.
  intros H sg sg' rr st st' r Hg Hw. unfold mbind, mlift in Hw. destruct ra as [a|x]; [eapply H; eauto|].
  injection Hw as <- <-. apply unchanged_refl.
Qed.
Lemma leakfree_bind_lift2 {A} (ra : res A) k k' : (forall a, ra = Ok a -> leakfree (k a) (k' a)) -> leakfree (mbind (mlift ra) k) (mbind (mlift ra) k').
Proof.
  intros H sg sg' rr st st' r Hg Hw. unfold mbind, mlift in Hw, Hg. destruct ra as [a|x]; [eapply H; eauto|discriminate].
Qed.

Lemma leakfree_ext g g' w : (forall st, g st = g' st) -> leakfree g' w -> leakfree g w.
Proof. intros E H sg sg' rr st st' r Hg Hw. rewrite E in Hg. eapply H; eauto. Qed.

Lemma positions_RList_in (bs : list rval) b : In b bs -> incl (positions b) (positions (RList bs)).
Proof. intros Hb x Hx. simpl. apply in_flat_map. eauto. Qed.

Lemma bind_ret_id (m : @M T rval) st : (b <- m ;; mret b) st = m st.
Proof. unfold mbind. destruct (m st) as [s [a|e]]; reflexivity. Qed.

Lemma lf_travD en ei sub : ei_symm ei = false -> (forall f, sub = Some f -> lfclos f) ->
  forall dims pi ci p, no_fun pi ->
  leakfree (travD zero en ei sub dims MIM pi ci PayNone) (travD zero en ei sub dims MSet pi ci p).
Proof.
  intros Hs Hsub. induction dims as [|d ds IH]; intros pi ci p Hnf.
  - simpl. apply leakfree_wrap. destruct pi; [now apply leakfree_dispatch|]. destruct sub as [f|]; [apply Hsub; auto|now apply leakfree_dispatch].
  - cbn [travD].
    assert (Hmany : forall l rest, no_fun rest ->
       leakfree (rs <- mmapM (fun k => match k with
                     | KS _ => merr EType
                     | KI i => p' <- mlift (payloadUnpack PayNone k) ;;
                               travD zero en ei sub ds MIM rest (ci ++ [KI (canonical i d)]) p'
                     end) l ;; mret (RList rs))
                (rs <- mmapM (fun k => match k with
                     | KS _ => merr EType
                     | KI i => p' <- mlift (payloadUnpack p k) ;;
                               travD zero en ei sub ds MSet rest (ci ++ [KI (canonical i d)]) p'
                     end) l ;; mret (RList rs))).
    { intros l rest Hr. apply (leakfree_loop _ _ (fun b => b)); [intros bs b Hb; now apply positions_RList_in|].
      intros k Hk. exists k. split; [exact Hk|]. eapply leakfree_ext; [apply bind_ret_id|].
      destruct k as [n|i]; [apply leakfree_err|]. apply leakfree_bind_lift. intros p' _.
      eapply leakfree_ext; [|apply (IH rest _ p' Hr)]. reflexivity. }
    destruct pi as [|x rest]; apply leakfree_wrap.
    + apply leakfree_bind_lift2. intros l _. apply Hmany. constructor.
    + apply Forall_cons_iff in Hnf as [Hx Hr]. destruct x; try apply leakfree_err; try (now apply Hmany).
      * now apply IH.
      * apply leakfree_bind_lift2. intros l _. now apply Hmany.
      * apply Hmany. constructor; [exact I|constructor].
      * destruct Hx.
Qed.

Lemma lf_look_bind (d : list (string * clos)) k g h : (forall f, In (k, f) d -> leakfree g (h f)) -> leakfree g (mbind (look d k) h).
Proof.
  intros H. unfold look. destruct (dict_get k d) as [f|] eqn:E.
  - intros sg sg' rr st st' r Hg Hw. rewrite mbind_ret in Hw. eapply (H f (dict_get_In _ _ _ E)); eauto.
  - apply leakfree_err.
Qed.
Lemma lf_look_bind2 (d : list (string * clos)) k g h : (forall f, dict_get k d = Some f -> leakfree (g f) (h f)) ->
  leakfree (mbind (look d k) g) (mbind (look d k) h).
Proof.
  intros H. unfold look. destruct (dict_get k d) as [f|] eqn:E.
  - intros sg sg' rr st st' r Hg Hw. rewrite mbind_ret in Hw, Hg. eapply (H f eq_refl); eauto.
  - apply leakfree_err.
Qed.

Lemma positions_pydict (bs : list (string * rval)) b : In b (pydict bs) -> incl (positions (snd b)) (positions (RDict (pydict bs))).
Proof. intros Hb x Hx. simpl. apply in_flat_map. eauto. Qed.

Lemma dict_set_keys {V} k (v : V) d : NoDup (map fst d) -> NoDup (map fst (dict_set k v d)) /\ incl (map fst (dict_set k v d)) (k :: map fst d).
Proof.
  induction d as [|[k' v'] d IH]; intros H; simpl.
  - split; [repeat constructor; simpl; auto|apply incl_refl].
  - apply NoDup_cons_iff in H as [H1 H2]. destruct (IH H2) as [H3 H4]. destruct (String.eqb k k') eqn:E; simpl.
    + split; [now constructor|]. apply String.eqb_eq in E. subst. intros x [<-|Hx]; simpl; auto.
    + split.
      * constructor; [|exact H3]. intros Hin. apply H4 in Hin. destruct Hin as [->|Hin]; [|contradiction].
        now rewrite String.eqb_refl in E.
      * intros x [<-|Hx]; simpl; auto. apply H4 in Hx. destruct Hx as [<-|Hx]; auto.
Qed.
Lemma NoDup_pydict {V} (l : list (string * V)) : NoDup (map fst (pydict l)).
Proof.
  unfold pydict. assert (G : forall l (d : list (string * V)), NoDup (map fst d) ->
    NoDup (map fst (fold_left (fun d kv => dict_set (fst kv) (snd kv) d) l d))).
  { clear l. induction l as [|[k v] l IH]; intros d H; [exact H|]. simpl. apply IH. now apply dict_set_keys. }
  apply G. constructor.
Qed.
Lemma dict_set_fresh {V} k (v : V) d : ~ In k (map fst d) -> dict_set k v d = d ++ [(k, v)].
Proof.
  induction d as [|[k' v'] d IH]; simpl; intros H; [reflexivity|].
  destruct (String.eqb k k') eqn:E; [apply String.eqb_eq in E; subst; tauto|]. f_equal. apply IH. tauto.
Qed.
Lemma pydict_id {V} (l : list (string * V)) : NoDup (map fst l) -> pydict l = l.
Proof.
  unfold pydict. assert (G : forall l (d : list (string * V)), NoDup (map fst (d ++ l)) ->
    fold_left (fun d kv => dict_set (fst kv) (snd kv) d) l d = d ++ l).
  { clear l. induction l as [|[k v] l IH]; intros d H; [now rewrite app_nil_r|]. simpl.
    rewrite dict_set_fresh.
    - rewrite IH; rewrite <- app_assoc; [reflexivity|exact H].
    - rewrite map_app in H. simpl in H. apply NoDup_remove_2 in H. intros Hin. apply H. apply in_or_app. now left. }
  intros H. exact (G l [] H).
Qed.

Lemma in_combine_enum {A} (l : list A) x : In x (enum l) -> In (snd x) l.
Proof. unfold enum. destruct x as [i a]. intros H. eapply in_combine_r; eauto. Qed.

(** For the dict branches: the getter ran over [lg] (with distinct keys). *)
Lemma leakfree_dict {A C} (fg : A -> @M T (string * rval)) (fw : C -> @M T (string * rval)) (lg : list A) (lw : list C) (key : A -> string) :
  NoDup (map key lg) -> (forall a s s' b, fg a s = (s', Ok b) -> fst b = key a) ->
  (forall c, In c lw -> (forall st, fw c st = merr EException st) \/ exists a, In a lg /\ leakfree (b <- fg a ;; mret (snd b)) (b <- fw c ;; mret (snd b))) ->
  leakfree (mdict (mmapM fg lg)) (mdict (mmapM fw lw)).
Proof.
  intros Hnd Hkey Hl sg sg' rr st st' r Hg Hw. unfold mdict, mbind in Hg, Hw.
  destruct (mmapM fg lg sg) as [s1 [bs|x]] eqn:E; [|discriminate]. injection Hg as <- <-.
  apply mmapM_Ok in E.
  assert (Hb : NoDup (map fst bs)).
  { replace (map fst bs) with (map key lg); [exact Hnd|]. clear -E Hkey. induction E as [|a b lg bs (s & s' & H) HF IH]; [reflexivity|].
    simpl. f_equal; [|exact IH]. symmetry. eapply Hkey; eauto. }
  rewrite (pydict_id bs Hb).
  assert (G : unchanged (positions (RDict bs)) st (fst (mmapM fw lw st))).
  { destruct (mmapM fw lw st) as [s2 r2] eqn:E2. simpl fst. eapply (mmapM_unchanged fw); [|exact E2].
    intros c st1 st1' r1 Hc Hr1. destruct (Hl c Hc) as [Herr|(a & Ha & Hlf)].
    { rewrite Herr in Hr1. injection Hr1 as <- <-. apply unchanged_refl. }
    destruct (Forall2_In_l _ _ _ a E Ha) as (b & Hbin & (sa & sa' & Hfa)).
    apply (unchanged_incl (positions (snd b))).
    - intros x Hx. simpl. apply in_flat_map. eauto.
    - eapply (Hlf sa sa' (snd b) st1 st1' (match r1 with Ok y => Ok (snd y) | Err e => Err e end)).
      + unfold mbind. rewrite Hfa. reflexivity.
      + unfold mbind. rewrite Hr1. destruct r1; reflexivity. }
  destruct (mmapM fw lw st) as [s2 [rs|x]]; injection Hw as <- <-; exact G.
Qed.

Lemma snd_ret (m : @M T rval) (k : string) st : (b <- (r <- m ;; mret (k, r)) ;; mret (snd b)) st = @mbind T rval rval m (fun r => mret r) st.
Proof. unfold mbind. destruct (m st) as [s [a|e]]; reflexivity. Qed.

Lemma leakfree_snd g w k k' : leakfree g w ->
  leakfree (b <- (r <- g ;; mret (k : string, r)) ;; mret (snd b)) (b <- (r <- w ;; mret (k' : string, r)) ;; mret (snd b)).
Proof.
  intros H sg sg' rr st st' r Hg Hw. rewrite snd_ret, bind_ret_id in Hg. rewrite snd_ret, bind_ret_id in Hw. eapply H; eauto.
Qed.

Lemma look_ok (d : list (string * clos)) k : (exists f, dict_get k d = Some f) \/ (dict_get k d = None).
Proof. destruct (dict_get k d); eauto. Qed.

Lemma lf_travS_body d keys : NoDup (map fst d) -> (forall k f, In (k, f) d -> lfclos f) ->
  forall en pi ci p, no_fun pi ->
  leakfree (travS_body zero d keys en MIM pi ci PayNone) (travS_body zero d keys en MSet pi ci p).
Proof.
  intros Hnd Hd en pi. induction pi as [|x rest IH]; intros ci p Hnf; cbn [travS_body]; apply leakfree_wrap.
  - apply leakfree_dispatch0.
  - apply Forall_cons_iff in Hnf as [Hx Hr].
    assert (Hdict : forall rest, no_fun rest -> leakfree
        (mdict (mmapM (fun x => r <- snd x en MIM rest (ci ++ [KS (fst x)]) PayNone ;; mret (fst x, r)) d))
        (match p with
         | PayDict kv =>
            mdict (mmapM (fun x => f <- look d (fst x) ;;
                               r <- f en MSet rest (ci ++ [KS (fst x)]) (snd x) ;; mret (fst x, r)) kv)
         | _ => mdict (mmapM (fun x => r <- snd x en MSet rest (ci ++ [KS (fst x)]) p ;; mret (fst x, r)) d)
         end)).
    { clear rest IH Hr. intros rest Hr.
      assert (Hkey : forall (a : string * clos) s s' b,
         (r <- snd a en MIM rest (ci ++ [KS (fst a)]) PayNone ;; mret (fst a, r)) s = (s', Ok b) -> fst b = fst a).
      { intros a s s' b. unfold mbind. destruct (snd a en MIM rest (ci ++ [KS (fst a)]) PayNone s) as [s1 [r1|]]; [|discriminate].
        intros [= <- <-]. reflexivity. }
      destruct p as [| | |l|kv|p']; try (apply (leakfree_dict _ _ _ _ fst Hnd Hkey); intros [k f] Hin; right; exists (k, f);
           split; [exact Hin|]; simpl; apply leakfree_snd; now apply (Hd k f)).
      apply (leakfree_dict _ _ _ _ fst Hnd Hkey). intros [k v] Hin. simpl. unfold look.
      destruct (dict_get k d) as [f|] eqn:E; [right|left; intros; reflexivity].
      exists (k, f). split; [now apply dict_get_In|]. cbn [fst snd].
      intros sg sg' rr st st' r Hg Hw. rewrite mbind_ret in Hw || idtac.
      eapply (leakfree_snd _ _ k k (Hd k f (dict_get_In _ _ _ E) en rest (ci ++ [KS k]) v Hr)); eauto. }
    destruct x; try apply leakfree_err; try (now apply Hdict).
    + apply lf_look_bind2. intros f Hf. apply (Hd _ _ (dict_get_In _ _ _ Hf)). exact Hr.
    + apply (leakfree_loop _ _ (fun b => b)); [intros bs b Hb; now apply positions_RList_in|].
      intros [i k] Hik. exists (i, k). split; [exact Hik|]. eapply leakfree_ext; [apply bind_ret_id|].
      apply leakfree_bind_lift. intros p' _. eapply leakfree_ext; [|apply (IH (ci ++ [k]) p' Hr)]. reflexivity.
    + apply (leakfree_loop _ _ (fun b => b)); [intros bs b Hb; now apply positions_RList_in|].
      intros [i k] Hik. exists (i, k). split; [exact Hik|]. eapply leakfree_ext; [apply bind_ret_id|].
      simpl. apply lf_look_bind2. intros f Hf. apply leakfree_bind_lift. intros p' _.
      eapply leakfree_ext; [|apply (Hd _ _ (dict_get_In _ _ _ Hf) en rest (ci ++ [KS k]) p' Hr)]; reflexivity.
    + assert (Hkey : forall (a : string) s s' b,
         (f <- look d a ;; r <- f en MIM rest (ci ++ [KS a]) PayNone ;; mret (a, r)) s = (s', Ok b) -> fst b = a).
      { intros a s s' b. unfold mbind, look. destruct (dict_get a d) as [f|]; [|discriminate]. simpl.
        destruct (f en MIM rest (ci ++ [KS a]) PayNone s) as [s1 [r1|]]; [|discriminate].
        intros [= <- <-]. reflexivity. }
      assert (Hnn : NoDup (map (fun k : string => k) l)) by (rewrite map_id; exact Hx).
      assert (Hone : forall k v, leakfree
          (b <- (f <- look d k ;; r <- f en MIM rest (ci ++ [KS k]) PayNone ;; mret (k, r)) ;; mret (snd b))
          (b <- (f <- look d k ;; r <- f en MSet rest (ci ++ [KS k]) v ;; mret (k, r)) ;; mret (snd b))).
      { intros k v sg sg' rr st st' r Hg Hw. unfold look in Hg, Hw. destruct (dict_get k d) as [f|] eqn:E; [|discriminate].
        eapply (leakfree_snd _ _ k k (Hd k f (dict_get_In _ _ _ E) en rest (ci ++ [KS k]) v Hr)); eauto. }
      destruct p as [| | |l0|kv|p']; try (apply (leakfree_dict _ _ _ _ (fun k => k) Hnn Hkey); intros k Hin; right; exists k; auto).
      apply (leakfree_dict _ _ _ _ (fun k => k) Hnn Hkey). intros [k v] Hin. apply filter_In in Hin as [_ Hin].
      right. exists k. split; [now apply str_mem_In|]. apply (Hone k v).
    + apply Hdict. repeat constructor.
    + destruct Hx.
Qed.

Lemma lf_travS s : NoSymm s -> lfclos (travS zero s).
Proof.
  induction s as [es order IH] using structure_ind2. intros Hns en pi ci p Hnf. rewrite !travS_eq.
  apply lf_travS_body; [apply NoDup_pydict| |exact Hnf]. intros k f Hin. unfold sdictT in Hin. apply in_pydict in Hin. simpl in Hin.
  apply in_map_iff in Hin as (e & [= <- <-] & He). intros en' pi' ci' p' Hm'. rewrite !travE_eq.
  inversion Hns as [es' order' H1 H2]; subst.
  apply lf_travD; [now apply H1| |exact Hm'].
  unfold subT. intros f. destruct (e_struct e) as [s'|] eqn:Es; [|discriminate]. intros [= <-]. eapply IH; eauto.
Qed.

Lemma i_get_run s c pi rr : casadi_structure s = Ok c -> i_get zero s pi = Ok rr ->
  exists sg', travS zero s (num_env c) MIM pi [] PayNone (@empty_state T) = (sg', Ok rr).
Proof.
  intros Hc. unfold i_get, index_getter. rewrite Hc. cbn [rbind]. unfold num_env.
  destruct (travS zero s _ MIM pi [] PayNone empty_state) as [sg' r]. simpl.
  destruct r; cbn [rbind]; [|discriminate]. intros [= ->]. eauto.
Qed.

Theorem writes_local s c (st st' : pstate) pi v rr r :
  casadi_structure s = Ok c -> NoSymm s -> no_fun pi -> i_get zero s pi = Ok rr ->
  setitem zero s (num_env c) pi v st = (st', r) -> unchanged (positions rr) st st'.
Proof.
  intros Hc Hns Hnf Hi Hset. destruct (i_get_run s c pi rr Hc Hi) as (sg' & E).
  eapply (lf_travS s Hns (num_env c) pi [] v Hnf); eauto.
Qed.

(** What is read depends only on the elements listed by [s.i]. *)
Definition agree (l : list nat) (st st' : pstate) : Prop :=
  forall k, In k l -> nth_error (ps_master st') k = nth_error (ps_master st) k.
Lemma agree_incl l l' a b : incl l l' -> agree l' a b -> agree l a b.
Proof. intros Hi H k Hk. apply H, Hi, Hk. Qed.

Lemma mmapM_pure {A B} (f : A -> @M T B) l st : (forall a, In a l -> pure (f a)) ->
  mmapM f l st = (st, rmapM (fun a => snd (f a st)) l).
Proof.
  induction l as [|a l IH]; intros H; [reflexivity|]. simpl. unfold mbind.
  pose proof (H a (or_introl eq_refl) st) as Ha. destruct (f a st) as [s1 [b|e]]; simpl in *; subst s1; [|reflexivity].
  rewrite IH by (intros; apply H; now right). destruct (rmapM _ l); reflexivity.
Qed.
Lemma rmapM_ext {A B} (f g : A -> res B) l : (forall a, In a l -> f a = g a) -> rmapM f l = rmapM g l.
Proof.
  induction l as [|a l IH]; intros H; [reflexivity|]. simpl. rewrite (H a (or_introl eq_refl)). rewrite IH by (intros; apply H; now right). reflexivity.
Qed.

Definition readdep (g r : @M T rval) : Prop :=
  forall sg sg' rr st st', g sg = (sg', Ok rr) -> agree (positions rr) st st' -> snd (r st) = snd (r st').

Lemma readdep_wrap g w : readdep g w -> readdep (mwrap g) (mwrap w).
Proof.
  intros H sg sg' rr st st' Hg Hag. apply (proj1 (mwrap_Ok _ _ _ _)) in Hg. specialize (H _ _ _ _ _ Hg Hag).
  unfold mwrap. destruct (w st) as [s1 [a|x]], (w st') as [s2 [b|y]]; simpl in *; congruence.
Qed.

Lemma vec_get_agree v v' (i : dm nat) : (forall k, In k (dm_nz i) -> nth_error v' k = nth_error v k) -> @vec_get T v i = vec_get v' i.
Proof.
  intros H. unfold vec_get. 
  rewrite (rmapM_ext _ (fun k => match nth_error v' k with Some a => Ok a | None => Err EException end) (dm_nz i)); [reflexivity|].
  intros k Hk. now rewrite H.
Qed.

Lemma readdep_dispatch en ci ex ei : en_pmap en = [] ->
  readdep (dispatch zero en MIM PayNone ci ex ei) (dispatch zero en MGet PayNone ci ex ei).
Proof.
  intros Hp sg sg' rr st st' Hg Hag. simpl in Hg. unfold mlift, imget in Hg. injection Hg as <- Hg.
  simpl. unfold getter. destruct (cmap_get ci (en_map en)) as [mi|]; [|discriminate]. rewrite Hp.
  replace (match extra ex with [] => cmap_get ci [] | _ => None end) with (@None (dm T)) by (destruct (extra ex); reflexivity).
  unfold mbind, mlift. rewrite Hg. destruct rr; try reflexivity. unfold get_master.
  simpl in Hag. unfold correct_vector_indexing. rewrite (vec_get_agree _ (ps_master st') m Hag).
  destruct (is_symm ei); reflexivity.
Qed.

Definition rdclos (f : clos) : Prop := forall en pi ci, en_pmap en = [] -> no_fun pi ->
  readdep (f en MIM pi ci PayNone) (f en MGet pi ci PayNone).

Lemma readdep_loop {A B C} (fg : A -> @M T B) (fw : A -> @M T C) (proj : B -> rval) (lg : list A)
      (kg : list B -> rval) (kw : list C -> rval) :
  (forall a, In a lg -> pure (fw a)) ->
  (forall bs b, In b bs -> incl (positions (proj b)) (positions (kg bs))) ->
  (forall a, In a lg -> forall sg sg' b st st', fg a sg = (sg', Ok b) -> agree (positions (proj b)) st st' -> snd (fw a st) = snd (fw a st')) ->
  readdep (bs <- mmapM fg lg ;; mret (kg bs)) (rs <- mmapM fw lg ;; mret (kw rs)).
Proof.
  intros Hpure Hk Hl sg sg' rr st st' Hg Hag. unfold mbind in Hg.
  destruct (mmapM fg lg sg) as [s1 [bs|x]] eqn:E; [|discriminate]. injection Hg as <- <-.
  unfold mbind. rewrite !mmapM_pure by exact Hpure. apply mmapM_Ok in E.
  rewrite (rmapM_ext _ (fun a => snd (fw a st')) lg); [destruct (rmapM _ lg); reflexivity|].
  intros a Ha. destruct (Forall2_In_l _ _ _ a E Ha) as (b & Hb & (sa & sa' & Hfa)).
  eapply Hl; eauto. eapply agree_incl; [|exact Hag]. now apply Hk.
Qed.

Lemma readdep_bind_lift2 {A} (ra : res A) k k' : (forall a, ra = Ok a -> readdep (k a) (k' a)) -> readdep (mbind (mlift ra) k) (mbind (mlift ra) k').
Proof.
  intros H sg sg' rr st st' Hg Hw. unfold mbind, mlift in Hg |- *. destruct ra as [a|x]; [eapply H; eauto|reflexivity].
Qed.
Lemma readdep_err g e : readdep g (merr e).
Proof. intros sg sg' rr st st' _ _. reflexivity. Qed.

Lemma rd_travD en ei sub : en_pmap en = [] -> (forall f, sub = Some f -> rdclos f /\ pclos f) ->
  forall dims pi ci, no_fun pi ->
  readdep (travD zero en ei sub dims MIM pi ci PayNone) (travD zero en ei sub dims MGet pi ci PayNone).
Proof.
  intros Hp Hsub. induction dims as [|d ds IH]; intros pi ci Hnf.
  - simpl. apply readdep_wrap. destruct pi; [now apply readdep_dispatch|]. destruct sub as [f|]; [now apply (Hsub f eq_refl)|now apply readdep_dispatch].
  - cbn [travD].
    assert (Hmany : forall l rest, no_fun rest ->
       readdep (rs <- mmapM (fun k => match k with
                     | KS _ => merr EType
                     | KI i => p' <- mlift (payloadUnpack PayNone k) ;;
                               travD zero en ei sub ds MIM rest (ci ++ [KI (canonical i d)]) p'
                     end) l ;; mret (RList rs))
                (rs <- mmapM (fun k => match k with
                     | KS _ => merr EType
                     | KI i => p' <- mlift (payloadUnpack PayNone k) ;;
                               travD zero en ei sub ds MGet rest (ci ++ [KI (canonical i d)]) p'
                     end) l ;; mret (RList rs))).
    { intros l rest Hr. apply (readdep_loop _ _ (fun b => b)).
      - intros [n|i] _; [apply pure_err|]. apply pure_bind; [apply pure_lift|]. intros. apply pure_travD; [|reflexivity].
        intros f Hf. now apply (Hsub f Hf).
      - intros bs b Hb; now apply positions_RList_in.
      - intros k Hk sg sg' b st st' Hg Hag. destruct k as [n|i]; [reflexivity|].
        exact (IH rest _ Hr sg sg' b st st' Hg Hag). }
    destruct pi as [|x rest]; apply readdep_wrap.
    + apply readdep_bind_lift2. intros l _. apply Hmany. constructor.
    + apply Forall_cons_iff in Hnf as [Hx Hr]. destruct x; try apply readdep_err; try (now apply Hmany).
      * now apply IH.
      * apply readdep_bind_lift2. intros l _. now apply Hmany.
      * apply Hmany. constructor; [exact I|constructor].
      * destruct Hx.
Qed.

Lemma rd_look_bind2 (d : list (string * clos)) k g h : (forall f, dict_get k d = Some f -> readdep (g f) (h f)) ->
  readdep (mbind (look d k) g) (mbind (look d k) h).
Proof.
  intros H. unfold look. destruct (dict_get k d) as [f|] eqn:E.
  - intros sg sg' rr st st' Hg Hw. rewrite mbind_ret in Hg. rewrite !mbind_ret. eapply (H f eq_refl); eauto.
  - apply readdep_err.
Qed.

Lemma readdep_dict {A} (fg fw : A -> @M T (string * rval)) (lg : list A) (key : A -> string) :
  NoDup (map key lg) -> (forall a s s' b, fg a s = (s', Ok b) -> fst b = key a) ->
  (forall a, In a lg -> pure (fw a)) ->
  (forall a, In a lg -> forall sg sg' b st st', fg a sg = (sg', Ok b) -> agree (positions (snd b)) st st' -> snd (fw a st) = snd (fw a st')) ->
  readdep (mdict (mmapM fg lg)) (mdict (mmapM fw lg)).
Proof.
  intros Hnd Hkey Hpure Hl sg sg' rr st st' Hg Hag. unfold mdict, mbind in Hg.
  destruct (mmapM fg lg sg) as [s1 [bs|x]] eqn:E; [|discriminate]. injection Hg as <- <-.
  apply mmapM_Ok in E.
  assert (Hb : NoDup (map fst bs)).
  { replace (map fst bs) with (map key lg); [exact Hnd|]. clear -E Hkey. induction E as [|a b lg bs (s & s' & H) HF IH]; [reflexivity|].
    simpl. f_equal; [|exact IH]. symmetry. eapply Hkey; eauto. }
  rewrite (pydict_id bs Hb) in Hag. unfold mdict, mbind. rewrite !mmapM_pure by exact Hpure.
  rewrite (rmapM_ext _ (fun a => snd (fw a st')) lg); [destruct (rmapM _ lg); reflexivity|].
  intros a Ha. destruct (Forall2_In_l _ _ _ a E Ha) as (b & Hbin & (sa & sa' & Hfa)).
  eapply Hl; eauto. eapply agree_incl; [|exact Hag]. intros x Hx. simpl. apply in_flat_map. eauto.
Qed.

Lemma rd_travS_body d keys : NoDup (map fst d) -> (forall k f, In (k, f) d -> rdclos f /\ pclos f) ->
  forall en pi ci, en_pmap en = [] -> no_fun pi ->
  readdep (travS_body zero d keys en MIM pi ci PayNone) (travS_body zero d keys en MGet pi ci PayNone).
Proof.
  intros Hnd Hd en pi ci Hp. revert ci. induction pi as [|x rest IH]; intros ci Hnf; cbn [travS_body]; apply readdep_wrap.
  - now apply readdep_dispatch.
  - apply Forall_cons_iff in Hnf as [Hx Hr].
    assert (Hone : forall f k rest, In (k, f) d -> no_fun rest -> forall sg sg' b st st',
      (r <- f en MIM rest (ci ++ [KS k]) PayNone ;; mret (k, r)) sg = (sg', Ok b) -> agree (positions (snd b)) st st' ->
      snd ((r <- f en MGet rest (ci ++ [KS k]) PayNone ;; mret (k, r)) st) = snd ((r <- f en MGet rest (ci ++ [KS k]) PayNone ;; mret (k, r)) st')).
    { clear rest IH Hr. intros f k rest Hin Hr sg sg' b st st' Hg Hag. destruct (Hd k f Hin) as [Hrd _].
      unfold mbind in Hg. destruct (f en MIM rest (ci ++ [KS k]) PayNone sg) as [s1 [r1|]] eqn:E; [|discriminate].
      injection Hg as <- <-. specialize (Hrd en rest (ci ++ [KS k]) Hp Hr _ _ _ _ _ E Hag). unfold mbind.
      destruct (f en MGet rest (ci ++ [KS k]) PayNone st) as [sa [ra|xa]], (f en MGet rest (ci ++ [KS k]) PayNone st') as [sb [rb|xb]];
        simpl in *; congruence. }
    assert (Hdict : forall rest, no_fun rest -> readdep
        (mdict (mmapM (fun x => r <- snd x en MIM rest (ci ++ [KS (fst x)]) PayNone ;; mret (fst x, r)) d))
        (mdict (mmapM (fun x => r <- snd x en MGet rest (ci ++ [KS (fst x)]) PayNone ;; mret (fst x, r)) d))).
    { clear rest IH Hr. intros rest Hr. apply (readdep_dict _ _ _ fst Hnd).
      - intros [k f] s s' b. cbn [fst snd]. unfold mbind. destruct (f en MIM rest (ci ++ [KS k]) PayNone s) as [s1 [r1|]]; [|discriminate].
        intros [= <- <-]. reflexivity.
      - intros [k f] Hin. apply pure_bind; [now apply (Hd k f)|]. intros. apply pure_ret.
      - intros [k f] Hin. cbn [fst snd]. now apply Hone. }
    destruct x; try apply readdep_err; try (now apply Hdict).
    + apply rd_look_bind2. intros f Hf. apply (Hd _ _ (dict_get_In _ _ _ Hf)); assumption.
    + apply (readdep_loop _ _ (fun b => b)).
      * intros [i k] _. apply pure_bind; [apply pure_lift|]. intros. apply pure_travS_body; [|reflexivity].
        intros k' f' Hin. now apply (Hd k' f').
      * intros bs b Hb; now apply positions_RList_in.
      * intros [i k] Hik sg sg' b st st' Hg Hag. exact (IH (ci ++ [k]) Hr sg sg' b st st' Hg Hag).
    + apply (readdep_loop _ _ (fun b => b)).
      * intros [i k] _. apply pure_look_bind. intros f Hf. apply pure_bind; [apply pure_lift|]. intros. now apply (Hd _ _ Hf).
      * intros bs b Hb; now apply positions_RList_in.
      * intros [i k] Hik sg sg' b st st' Hg Hag. 
        exact (rd_look_bind2 d k _ _ (fun f Hf => proj1 (Hd _ _ (dict_get_In _ _ _ Hf)) en rest (ci ++ [KS k]) Hp Hr) sg sg' b st st' Hg Hag).
    + apply (readdep_dict _ _ _ (fun k => k)).
      * rewrite map_id. exact Hx.
      * intros a s s' b. unfold mbind, look. destruct (dict_get a d) as [f|]; [|discriminate]. simpl.
        destruct (f en MIM rest (ci ++ [KS a]) PayNone s) as [s1 [r1|]]; [|discriminate].
        intros [= <- <-]. reflexivity.
      * intros a _. apply pure_look_bind. intros f Hf. apply pure_bind; [now apply (Hd _ _ Hf)|]. intros. apply pure_ret.
      * intros k _ sg sg' b st st' Hg Hag. unfold look in *. destruct (dict_get k d) as [f|] eqn:E; [|discriminate].
        exact (Hone f k rest (dict_get_In _ _ _ E) Hr sg sg' b st st' Hg Hag).
    + apply Hdict. repeat constructor.
    + destruct Hx.
Qed.

Lemma rd_travS s : rdclos (travS zero s).
Proof.
  induction s as [es order IH] using structure_ind2. intros en pi ci Hp Hnf. rewrite !travS_eq.
  apply rd_travS_body; [apply NoDup_pydict| |exact Hp|exact Hnf]. intros k f Hin. unfold sdictT in Hin. apply in_pydict in Hin. simpl in Hin.
  apply in_map_iff in Hin as (e & [= <- <-] & He).
  assert (Hsub : forall f, subT zero e = Some f -> rdclos f /\ pclos f).
  { unfold subT. intros f. destruct (e_struct e) as [s'|] eqn:Es; [|discriminate]. intros [= <-]. split; [eapply IH; eauto|apply pure_travS]. }
  split.
  - intros en' pi' ci' Hp' Hm'. rewrite !travE_eq. now apply rd_travD.
  - intros en' md' pi' ci' p' Hm'. rewrite travE_eq. apply pure_travD; [|exact Hm']. intros f Hf. now apply Hsub.
Qed.

Theorem reads_local s c (st st' : pstate) pi rr :
  casadi_structure s = Ok c -> no_fun pi -> i_get zero s pi = Ok rr ->
  agree (positions rr) st st' ->
  getitem zero s (num_env c) pi st = getitem zero s (num_env c) pi st'.
Proof.
  intros Hc Hnf Hi Hag. destruct (i_get_run s c pi rr Hc Hi) as (sg' & E).
  exact (rd_travS s (num_env c) pi [] eq_refl Hnf _ _ _ _ _ E Hag).
Qed.

Theorem write_disjoint_read s c (st st' : pstate) pi v rr r pi' rr' :
  casadi_structure s = Ok c -> NoSymm s -> no_fun pi -> no_fun pi' ->
  i_get zero s pi = Ok rr -> i_get zero s pi' = Ok rr' ->
  (forall k, In k (positions rr) -> In k (positions rr') -> False) ->
  setitem zero s (num_env c) pi v st = (st', r) ->
  getitem zero s (num_env c) pi' st' = getitem zero s (num_env c) pi' st.
Proof.
  intros Hc Hns Hnf Hnf' Hi Hi' Hdis Hset. symmetry. eapply reads_local; eauto.
  intros k Hk. apply (writes_local _ _ _ _ _ _ _ _ Hc Hns Hnf Hi Hset). intros H. eapply Hdis; eauto.
Qed.
End P.
