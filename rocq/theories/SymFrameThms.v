(** What an assignment can change when some entries are symmetric (C11): outside the elements
    listed by [s.i] only elements of symmetric entries. *)
From Verif Require Import PyBase IndexModel DMModel StructModel StructSpec PowerModel PowerSpec
  IndexProofs StructProofs LayoutProofs LayoutThms LayoutExamples DMProofs PowerProofs PowerThms SliceProofs PowerThms2 PowerThms3.

(** ** Spec *)
(** Element [k] of the vector belongs to an entry declared with type='symm'. *)
Definition InSymm (s : structure) (c : cstruct) (k : nat) : Prop :=
  exists ci e m, At s ci e /\ e_symm e = true /\ cmap_get ci (cs_map c) = Some m /\ In k (dm_nz m).

(** A list of names ends the index. *)
Fixpoint names_end {T} (pi : list (pel T)) : Prop :=
  match pi with
  | [] => True
  | PLst l :: rest => (Forall (fun k => exists z, k = KI z) l \/ rest = []) /\ names_end rest
  | _ :: rest => names_end rest
  end.

(** A path with the right number of integers for every entry, in range or not. *)
Inductive RAt : structure -> cidx -> entry -> Prop :=
| RAt_here : forall s e idx,
    In e (s_entries s) -> length idx = length (e_dims e) -> RAt s (KS (e_name e) :: map KI idx) e
| RAt_sub : forall s e idx s' ci e',
    In e (s_entries s) -> e_struct e = Some s' -> length idx = length (e_dims e) -> RAt s' ci e' ->
    RAt s (KS (e_name e) :: map KI idx ++ ci) e'.

Lemma KI_inj a b : map KI a = map KI b -> a = b.
Proof. revert b. induction a as [|x a IH]; intros [|y b] E; try discriminate; [reflexivity|]. injection E as -> E. f_equal. now apply IH. Qed.

Lemma RAt_At s r e e' : Wf s -> RAt s r e -> At s r e' -> e' = e.
Proof.
  intros Hw H. revert e' Hw. induction H as [s e idx He Hl|s e idx s' ci e1 He Es Hl Ha IH]; intros e' Hw Hat.
  - inversion Hat as [s0 e0 idx0 He0 Hd0 E1|s0 e0 idx0 s1 ci1 e2 He0 Es0 Hd0 Ha1 E1]; subst.
    + exact (name_inj _ _ _ (Wf_NoDup _ Hw) He0 He H).
    + exfalso. destruct (At_starts _ _ _ Ha1) as (n & r & ->). symmetry in H0. exact (KS_not_in_KI _ _ _ _ H0).
  - inversion Hat as [s0 e0 idx0 He0 Hd0 E1|s0 e0 idx0 s1 ci1 e2 He0 Es0 Hd0 Ha1 E1]; subst.
    + exfalso. assert (Hst : exists n r, ci = KS n :: r) by (destruct Ha; eauto). destruct Hst as (n & r & ->). exact (KS_not_in_KI _ _ _ _ H0).
    + pose proof (name_inj _ _ _ (Wf_NoDup _ Hw) He0 He H) as ->.
      assert (length idx0 = length idx) by (rewrite (Forall2_len _ _ _ Hd0), Hl; reflexivity).
      destruct (map_KI_app_inv _ _ _ _ H0 H1) as [-> ->]. rewrite Es in Es0. injection Es0 as <-. apply IH; [eapply Wf_sub; eauto|exact Ha1].
Qed.

Lemma RAt_dead s r e : RAt s r e -> Wf s -> forall z r' e', ~ At s (r ++ KI z :: r') e'.
Proof.
  induction 1 as [s e idx He Hl|s e idx s' ci e1 He Es Hl Ha IH]; intros Hw z r' e' Hat.
  - inversion Hat as [s0 e0 idx0 He0 Hd0 E1|s0 e0 idx0 s1 ci1 e2 He0 Es0 Hd0 Ha1 E1]; subst.
    + pose proof (name_inj _ _ _ (Wf_NoDup _ Hw) He0 He H) as ->.
      assert (El : length idx0 = length idx) by (rewrite (Forall2_len _ _ _ Hd0), Hl; reflexivity).
      apply (f_equal (@length ck)) in H0. rewrite app_length, !map_length in H0. cbn in H0. lia.
    + pose proof (name_inj _ _ _ (Wf_NoDup _ Hw) He0 He H) as ->.
      assert (El : length idx0 = length idx) by (rewrite (Forall2_len _ _ _ Hd0), Hl; reflexivity).
      destruct (map_KI_app_inv _ _ _ _ H0 El) as [-> ->]. destruct (At_starts _ _ _ Ha1) as (n & r & E). discriminate.
  - assert (Hst : exists n r, ci = KS n :: r) by (destruct Ha; eauto). destruct Hst as (n & r & ->).
    cbn [app] in Hat. rewrite <- app_assoc in Hat. cbn [app] in Hat.
    inversion Hat as [s0 e0 idx0 He0 Hd0 E1|s0 e0 idx0 s1 ci1 e2 He0 Es0 Hd0 Ha1 E1]; subst.
    + exact (KS_not_in_KI _ _ _ _ H0).
    + pose proof (name_inj _ _ _ (Wf_NoDup _ Hw) He0 He H) as ->.
      assert (El : length idx0 = length idx) by (rewrite (Forall2_len _ _ _ Hd0), Hl; reflexivity).
      destruct (map_KI_app_inv _ _ _ _ H0 El) as [-> ->]. rewrite Es in Es0. injection Es0 as <-.
      apply (IH (Wf_sub _ _ _ Hw He Es) z r' e'). exact Ha1.
Qed.

Section P.
Context {T : Type} (zero : T).
Notation rval := (rval T).
Notation pel := (pel T).
Notation pay := (pay T).
Notation env := (env T).
Notation einfo := (einfo T).
Notation pstate := (pstate T).
Notation clos := (@clos T).

Section L.
Variable L : list nat.
(** A run of the setter changes only what a run of the index getter lists. *)
Definition lfx (g : @M T rval) (w : @M T rval) : Prop :=
  forall sg sg' rr st st' r, g sg = (sg', Ok rr) -> w st = (st', r) -> unchanged (positions rr ++ L) st st'.

Lemma lfx_wrap g w : lfx g w -> lfx (mwrap g) (mwrap w).
Proof.
  intros H sg sg' rr st st' r Hg Hw. apply (proj1 (mwrap_Ok _ _ _ _)) in Hg. unfold mwrap in Hw.
  destruct (w st) as [s1 [a|x]] eqn:E; injection Hw as <- <-; (eapply H; [exact Hg|exact E]).
Qed.

Lemma lfx_dispatch0 en p ci ex : 
  lfx (dispatch zero en MIM PayNone ci ex None) (dispatch zero en MSet p ci ex None).
Proof.
  intros sg sg' rr st st' r Hg Hw. simpl in Hg, Hw. unfold mlift, imget in Hg. injection Hg as <- Hg.
  unfold setter, mbind, mlift in Hw. destruct (to_mtype p) as [m|]; [|injection Hw as <- <-; apply unchanged_refl].
  destruct (cmap_get ci (en_map en)) as [mi|]; [|discriminate].
  rewrite Hg in Hw. destruct rr; try (injection Hw as <- <-; apply unchanged_refl).
  simpl in Hw. destruct (master_set zero (en_kind en) m0 m st) as [s1 [u|x]] eqn:E; injection Hw as <- <-;
    simpl; (eapply unchanged_incl; [apply incl_appl, incl_refl|]); eapply master_set_unchanged; eauto.
Qed.

Lemma lfx_loop {A B C} (fg : A -> @M T B) (fw : C -> @M T rval) (proj : B -> rval) (lg : list A) (lw : list C) 
      (kg : list B -> rval) (kw : list rval -> rval) :
  (forall bs b, In b bs -> incl (positions (proj b)) (positions (kg bs))) ->
  (forall c, In c lw -> exists a, In a lg /\ lfx (b <- fg a ;; mret (proj b)) (fw c)) ->
  lfx (bs <- mmapM fg lg ;; mret (kg bs)) (rs <- mmapM fw lw ;; mret (kw rs)).
Proof.
  intros Hk Hl sg sg' rr st st' r Hg Hw. unfold mbind in Hg, Hw.
  destruct (mmapM fg lg sg) as [s1 [bs|x]] eqn:E; [|discriminate]. injection Hg as <- <-.
  assert (G : unchanged (positions (kg bs) ++ L) st (fst (mmapM fw lw st))).
  { destruct (mmapM fw lw st) as [s2 r2] eqn:E2. simpl. eapply (mmapM_unchanged fw); [|exact E2].
    intros c st1 st1' r1 Hc Hr1. destruct (Hl c Hc) as (a & Ha & Hlf).
    apply mmapM_Ok in E. destruct (Forall2_In_l _ _ _ a E Ha) as (b & Hb & (sa & sa' & Hfa)).
    apply (unchanged_incl (positions (proj b) ++ L)); [apply incl_app; [apply incl_appl; now apply Hk|now apply incl_appr]|]. eapply (Hlf sa sa'); [|exact Hr1].
    unfold mbind. rewrite Hfa. reflexivity. }
  destruct (mmapM fw lw st) as [s2 [rs|x]]; injection Hw as <- <-; exact G.
Qed.

Lemma lfx_err g e : lfx g (merr e).
Proof. intros sg sg' rr st st' r _ [= <- <-]. apply unchanged_refl. Qed.

Lemma lfx_bind_lift {A} g (ra : res A) k : (forall a, ra = Ok a -> lfx g (k a)) -> lfx g (mbind (mlift ra) k).
Proof.
  intros H sg sg' rr st st' r Hg Hw. unfold mbind, mlift in Hw. destruct ra as [a|x]; [eapply H; eauto|].
  injection Hw as <- <-. apply unchanged_refl.
Qed.
Lemma lfx_bind_lift2 {A} (ra : res A) k k' : (forall a, ra = Ok a -> lfx (k a) (k' a)) -> lfx (mbind (mlift ra) k) (mbind (mlift ra) k').
Proof.
  intros H sg sg' rr st st' r Hg Hw. unfold mbind, mlift in Hw, Hg. destruct ra as [a|x]; [eapply H; eauto|discriminate].
Qed.

Lemma lfx_ext g g' w : (forall st, g st = g' st) -> lfx g' w -> lfx g w.
Proof. intros E H sg sg' rr st st' r Hg Hw. rewrite E in Hg. eapply H; eauto. Qed.

Lemma lf_look_bindx (d : list (string * clos)) k g h : (forall f, In (k, f) d -> lfx g (h f)) -> lfx g (mbind (look d k) h).
Proof.
  intros H. unfold look. destruct (dict_get k d) as [f|] eqn:E.
  - intros sg sg' rr st st' r Hg Hw. rewrite mbind_ret in Hw. eapply (H f (dict_get_In _ _ _ E)); eauto.
  - apply lfx_err.
Qed.
Lemma lf_look_bindx2 (d : list (string * clos)) k g h : (forall f, dict_get k d = Some f -> lfx (g f) (h f)) ->
  lfx (mbind (look d k) g) (mbind (look d k) h).
Proof.
  intros H. unfold look. destruct (dict_get k d) as [f|] eqn:E.
  - intros sg sg' rr st st' r Hg Hw. rewrite mbind_ret in Hw, Hg. eapply (H f eq_refl); eauto.
  - apply lfx_err.
Qed.

(** For the dict branches: the getter ran over [lg] (with distinct keys). *)
Lemma lfx_dict {A C} (fg : A -> @M T (string * rval)) (fw : C -> @M T (string * rval)) (lg : list A) (lw : list C) (key : A -> string) :
  NoDup (map key lg) -> (forall a s s' b, fg a s = (s', Ok b) -> fst b = key a) ->
  (forall c, In c lw -> (forall st, fw c st = merr EException st) \/ exists a, In a lg /\ lfx (b <- fg a ;; mret (snd b)) (b <- fw c ;; mret (snd b))) ->
  lfx (mdict (mmapM fg lg)) (mdict (mmapM fw lw)).
Proof.
  intros Hnd Hkey Hl sg sg' rr st st' r Hg Hw. unfold mdict, mbind in Hg, Hw.
  destruct (mmapM fg lg sg) as [s1 [bs|x]] eqn:E; [|discriminate]. injection Hg as <- <-.
  apply mmapM_Ok in E.
  assert (Hb : NoDup (map fst bs)).
  { replace (map fst bs) with (map key lg); [exact Hnd|]. clear -E Hkey. induction E as [|a b lg bs (s & s' & H) HF IH]; [reflexivity|].
    simpl. f_equal; [|exact IH]. symmetry. eapply Hkey; eauto. }
  rewrite (pydict_id bs Hb).
  assert (G : unchanged (positions (RDict bs) ++ L) st (fst (mmapM fw lw st))).
  { destruct (mmapM fw lw st) as [s2 r2] eqn:E2. simpl fst. eapply (mmapM_unchanged fw); [|exact E2].
    intros c st1 st1' r1 Hc Hr1. destruct (Hl c Hc) as [Herr|(a & Ha & Hlf)].
    { rewrite Herr in Hr1. injection Hr1 as <- <-. apply unchanged_refl. }
    destruct (Forall2_In_l _ _ _ a E Ha) as (b & Hbin & (sa & sa' & Hfa)).
    apply (unchanged_incl (positions (snd b) ++ L)).
    - apply incl_app; [apply incl_appl|now apply incl_appr]. intros x Hx. simpl. apply in_flat_map. eauto.
    - eapply (Hlf sa sa' (snd b) st1 st1' (match r1 with Ok y => Ok (snd y) | Err e => Err e end)).
      + unfold mbind. rewrite Hfa. reflexivity.
      + unfold mbind. rewrite Hr1. destruct r1; reflexivity. }
  destruct (mmapM fw lw st) as [s2 [rs|x]]; injection Hw as <- <-; exact G.
Qed.

Lemma lfx_snd g w k k' : lfx g w ->
  lfx (b <- (r <- g ;; mret (k : string, r)) ;; mret (snd b)) (b <- (r <- w ;; mret (k' : string, r)) ;; mret (snd b)).
Proof.
  intros H sg sg' rr st st' r Hg Hw. rewrite snd_ret, bind_ret_id in Hg. rewrite snd_ret, bind_ret_id in Hw. eapply H; eauto.
Qed.


(** Prefixes under which symmetric entries lie in [L]. *)
Definition Good (mp : list (cidx * dm nat)) (pre : cidx) (s : structure) : Prop :=
  (forall r e m, RAt s r e -> e_symm e = true -> cmap_get (pre ++ r) mp = Some m -> DmOk m /\ incl (dm_nz m) L) /\
  (forall r z r', (r = [] \/ exists e, RAt s r e) -> cmap_get (pre ++ r ++ KI z :: r') mp = None).

Lemma Good_KI mp pre s z : Good mp pre s -> Good mp (pre ++ [KI z]) s.
Proof.
  intros [_ H]. split.
  - intros r e m _ _. rewrite <- app_assoc. intros Hm. pose proof (H [] z r (or_introl eq_refl)) as H0. cbn [app] in *. congruence.
  - intros r z' r' _. rewrite <- app_assoc. cbn [app]. apply (H [] z). auto.
Qed.
Lemma Good_sub mp pre s e s' idx : In e (s_entries s) -> e_struct e = Some s' -> length idx = length (e_dims e) ->
  Good mp pre s -> Good mp (pre ++ KS (e_name e) :: map KI idx) s'.
Proof.
  intros He Es Hl [H1 H2]. split.
  - intros r e' m Hr Hs. rewrite <- app_assoc. cbn [app]. apply (H1 _ e' m); [|exact Hs]. eapply RAt_sub; eauto.
  - intros r z r' Hr. rewrite <- app_assoc. cbn [app]. destruct Hr as [->|(e' & Hr)].
    + cbn [app]. apply (H2 (KS (e_name e) :: map KI idx)). right. exists e. now apply RAt_here.
    + rewrite app_assoc. apply (H2 (KS (e_name e) :: map KI idx ++ r)). right. exists e'. eapply RAt_sub; eauto.
Qed.

Definition nofun (ex : list pel) : Prop := Forall (fun p => match p with PFun _ => False | _ => True end) ex.

Lemma lfx_dispatch en p ci ex ei : 
  (ei_symm ei = true -> forall m, cmap_get ci (en_map en) = Some m -> DmOk m /\ incl (dm_nz m) L) -> nofun (extra ex) ->
  lfx (dispatch zero en MIM PayNone ci ex (Some ei)) (dispatch zero en MSet p ci ex (Some ei)).
Proof.
  intros Hs Hex sg sg' rr st st' r Hg Hw. destruct (ei_symm ei) eqn:Es.
  2:{ eapply unchanged_incl; [apply incl_appl, incl_refl|]. eapply (leakfree_dispatch zero en p ci ex ei Es); eauto. }
  specialize (Hs eq_refl).
  simpl in Hg, Hw. unfold mlift, imget in Hg. injection Hg as <- Hg.
  unfold setter, mbind, mlift in Hw. destruct (to_mtype p) as [m|]; [|injection Hw as <- <-; apply unchanged_refl].
  destruct (cmap_get ci (en_map en)) as [mi|]; [|discriminate]. destruct (Hs mi eq_refl) as [Hok HL].
  destruct (pei_ok (Some ei) false mi (extra ex) rr Hok Hex Hg) as (i & -> & _ & Hi).
  rewrite Hg in Hw. cbn [is_symm] in Hw. rewrite Es in Hw.
  destruct (performExtraIndex (Some ei) true (RIdx mi) (extra ex)) as [f|x] eqn:Ef; [|injection Hw as <- <-; apply unchanged_refl].
  destruct (pei_ok (Some ei) true mi (extra ex) f Hok Hex Ef) as (f' & -> & _ & Hf).
  assert (MF : forall M st st' r, master_set zero (en_kind en) f' M st = (st', r) -> unchanged (positions (@RIdx T i) ++ L) st st').
  { intros M s1 s2 r1 H. apply master_set_unchanged in H. eapply unchanged_incl; [|exact H]. apply incl_appr. eapply incl_tran; eauto. }
  assert (MI : forall M st st' r, master_set zero (en_kind en) i M st = (st', r) -> unchanged (positions (@RIdx T i) ++ L) st st').
  { intros M s1 s2 r1 H. apply master_set_unchanged in H. eapply unchanged_incl; [|exact H]. apply incl_appl, incl_refl. }
  destruct (dm_is_scalar m).
  - destruct (master_set zero (en_kind en) i m st) as [s1 [u|x]] eqn:E1; [|injection Hw as <- <-; eapply MI; eauto].
    destruct (master_set zero (en_kind en) f' m s1) as [s2 [u2|x]] eqn:E2; injection Hw as <- <-;
      (eapply unchanged_trans; [eapply MI; eauto|eapply MF; eauto]).
  - destruct (ei_orig ei) as [orig|]; [|injection Hw as <- <-; apply unchanged_refl].
    destruct (performExtraIndex (Some ei) false (RIdx (DM orig (map (fun _ => 1) (sp_pat orig)))) (extra ex)) as [[]|];
      try (injection Hw as <- <-; apply unchanged_refl).
    destruct (spy_eqb _ _); [|injection Hw as <- <-; apply unchanged_refl].
    destruct (dm_get_sp zero (dm_T m) (dm_sp f')) as [pt|]; [|injection Hw as <- <-; apply unchanged_refl].
    destruct (master_set zero (en_kind en) f' pt st) as [s1 [u|x]] eqn:E1; [|injection Hw as <- <-; eapply MF; eauto].
    destruct (dm_get_sp zero m (dm_sp i)) as [pu|]; [|injection Hw as <- <-; eapply MF; eauto].
    destruct (master_set zero (en_kind en) i pu s1) as [s2 [u2|x]] eqn:E2; injection Hw as <- <-;
      (eapply unchanged_trans; [eapply MF; eauto|eapply MI; eauto]).
Qed.

Definition lfxclos (en : env) (ci : cidx) (f : clos) : Prop := forall pi p, no_fun pi -> names_end pi ->
  lfx (f en MIM pi ci PayNone) (f en MSet pi ci p).

Lemma nofun_of (pi : list pel) : no_fun pi -> nofun pi.
Proof. apply Forall_impl. intros []; auto. Qed.

Lemma names_end_tl (x : pel) rest : names_end (x :: rest) -> names_end rest.
Proof. destruct x; cbn; tauto. Qed.

Lemma lfx_travD en s e pre : In e (s_entries s) -> Good (en_map en) pre s -> 
  (forall idx f, length idx = length (e_dims e) -> subT zero e = Some f -> lfxclos en (pre ++ KS (e_name e) :: map KI idx) f) ->
  forall dims idx pi p, length idx + length dims = length (e_dims e) -> no_fun pi -> names_end pi ->
  lfx (travD zero en (info zero e) (subT zero e) dims MIM pi (pre ++ KS (e_name e) :: map KI idx) PayNone)
      (travD zero en (info zero e) (subT zero e) dims MSet pi (pre ++ KS (e_name e) :: map KI idx) p).
Proof.
  intros He Hgood Hsub. induction dims as [|d ds IH]; intros idx pi p Hlen Hnf Hne.
  - assert (Hl : length idx = length (e_dims e)) by (cbn in Hlen; lia).
    assert (Hsy : ei_symm (info zero e) = true -> forall m, cmap_get (pre ++ KS (e_name e) :: map KI idx) (en_map en) = Some m -> DmOk m /\ incl (dm_nz m) L).
    { intros Hs m. apply (proj1 Hgood _ e m); [now apply RAt_here|exact Hs]. }
    simpl. apply lfx_wrap. destruct pi; [apply lfx_dispatch; [exact Hsy|constructor]|].
    destruct (subT zero e) as [f|] eqn:Ef; [apply (Hsub idx f Hl eq_refl); auto|apply lfx_dispatch; [exact Hsy|now apply nofun_of]].
  - cbn [travD].
    assert (Hmany : forall l rest, no_fun rest -> names_end rest ->
       lfx (rs <- mmapM (fun k => match k with
                     | KS _ => merr EType
                     | KI i => p' <- mlift (payloadUnpack PayNone k) ;;
                               travD zero en (info zero e) (subT zero e) ds MIM rest ((pre ++ KS (e_name e) :: map KI idx) ++ [KI (canonical i d)]) p'
                     end) l ;; mret (RList rs))
                (rs <- mmapM (fun k => match k with
                     | KS _ => merr EType
                     | KI i => p' <- mlift (payloadUnpack p k) ;;
                               travD zero en (info zero e) (subT zero e) ds MSet rest ((pre ++ KS (e_name e) :: map KI idx) ++ [KI (canonical i d)]) p'
                     end) l ;; mret (RList rs))).
    { intros l rest Hr Hrn. apply (lfx_loop _ _ (fun b => b)); [intros bs b Hb; now apply positions_RList_in|].
      intros k Hk. exists k. split; [exact Hk|]. eapply lfx_ext; [apply bind_ret_id|].
      destruct k as [n|i]; [apply lfx_err|]. apply lfx_bind_lift. intros p' _.
      eapply lfx_ext; [reflexivity|]. cbn [payloadUnpack].
      rewrite <- app_assoc. cbn [app]. change [KI (canonical i d)] with (map KI [canonical i d]). rewrite <- map_app.
      apply (IH (idx ++ [canonical i d]) rest p'); [rewrite app_length; cbn in *; lia|exact Hr|exact Hrn]. }
    destruct pi as [|x rest]; apply lfx_wrap.
    + apply lfx_bind_lift2. intros l _. apply Hmany; constructor.
    + pose proof (names_end_tl _ _ Hne) as Hrn. apply Forall_cons_iff in Hnf as [Hx Hr]. destruct x; try apply lfx_err; try (now apply Hmany).
      * rewrite <- app_assoc. cbn [app]. change [KI (canonical i d)] with (map KI [canonical i d]). rewrite <- map_app.
        apply IH; [rewrite app_length; cbn in *; lia|exact Hr|exact Hrn].
      * apply lfx_bind_lift2. intros l _. now apply Hmany.
      * apply Hmany; [constructor; [exact I|constructor]|exact I].
      * destruct Hx.
Qed.
Lemma lfx_travS_body en S0 d keys : NoDup (map fst d) -> (forall ci k f, Good (en_map en) ci S0 -> In (k, f) d -> lfxclos en (ci ++ [KS k]) f) ->
  forall pi ci p, Good (en_map en) ci S0 -> no_fun pi -> names_end pi ->
  lfx (travS_body zero d keys en MIM pi ci PayNone) (travS_body zero d keys en MSet pi ci p).
Proof.
  intros Hnd Hd pi. induction pi as [|x rest IH]; intros ci p Hgood Hnf Hne; cbn [travS_body]; apply lfx_wrap.
  - apply lfx_dispatch0.
  - pose proof (names_end_tl _ _ Hne) as Hrn. apply Forall_cons_iff in Hnf as [Hx Hr].
    assert (Hdict : forall rest, no_fun rest -> names_end rest -> lfx
        (mdict (mmapM (fun x => r <- snd x en MIM rest (ci ++ [KS (fst x)]) PayNone ;; mret (fst x, r)) d))
        (match p with
         | PayDict kv =>
            mdict (mmapM (fun x => f <- look d (fst x) ;;
                               r <- f en MSet rest (ci ++ [KS (fst x)]) (snd x) ;; mret (fst x, r)) kv)
         | _ => mdict (mmapM (fun x => r <- snd x en MSet rest (ci ++ [KS (fst x)]) p ;; mret (fst x, r)) d)
         end)).
    { clear rest IH Hr Hne Hrn. intros rest Hr Hrn.
      assert (Hkey : forall (a : string * clos) s s' b,
         (r <- snd a en MIM rest (ci ++ [KS (fst a)]) PayNone ;; mret (fst a, r)) s = (s', Ok b) -> fst b = fst a).
      { intros a s s' b. unfold mbind. destruct (snd a en MIM rest (ci ++ [KS (fst a)]) PayNone s) as [s1 [r1|]]; [|discriminate].
        intros [= <- <-]. reflexivity. }
      destruct p as [| | |l|kv|p']; try (apply (lfx_dict _ _ _ _ fst Hnd Hkey); intros [k f] Hin; right; exists (k, f);
           split; [exact Hin|]; simpl; apply lfx_snd; now apply (Hd ci k f)).
      apply (lfx_dict _ _ _ _ fst Hnd Hkey). intros [k v] Hin. simpl. unfold look.
      destruct (dict_get k d) as [f|] eqn:E; [right|left; intros; reflexivity].
      exists (k, f). split; [now apply dict_get_In|]. cbn [fst snd].
      intros sg sg' rr st st' r Hg Hw. rewrite mbind_ret in Hw || idtac.
      eapply (lfx_snd _ _ k k (Hd ci k f Hgood (dict_get_In _ _ _ E) rest v Hr Hrn)); eauto. }
    destruct x; try apply lfx_err; try (now apply Hdict).
    + apply lf_look_bindx2. intros f Hf. apply (Hd ci _ _ Hgood (dict_get_In _ _ _ Hf)); assumption.
    + apply (lfx_loop _ _ (fun b => b)); [intros bs b Hb; now apply positions_RList_in|].
      intros [i k] Hik. exists (i, k). split; [exact Hik|]. eapply lfx_ext; [apply bind_ret_id|].
      apply lfx_bind_lift. intros p' _. eapply lfx_ext; [reflexivity|]. cbn [payloadUnpack fst snd].
      destruct Hne as [[Hints| ->] _].
      * apply in_combine_enum in Hik. cbn in Hik. rewrite Forall_forall in Hints. destruct (Hints k Hik) as (z & ->).
        apply IH; [now apply Good_KI|exact Hr|exact Hrn].
      * cbn [travS_body]. apply lfx_wrap, lfx_dispatch0.
    + apply (lfx_loop _ _ (fun b => b)); [intros bs b Hb; now apply positions_RList_in|].
      intros [i k] Hik. exists (i, k). split; [exact Hik|]. eapply lfx_ext; [apply bind_ret_id|].
      simpl. apply lf_look_bindx2. intros f Hf. apply lfx_bind_lift. intros p' _.
      eapply lfx_ext; [|apply (Hd ci _ _ Hgood (dict_get_In _ _ _ Hf) rest p' Hr Hrn)]; reflexivity.
    + assert (Hkey : forall (a : string) s s' b,
         (f <- look d a ;; r <- f en MIM rest (ci ++ [KS a]) PayNone ;; mret (a, r)) s = (s', Ok b) -> fst b = a).
      { intros a s s' b. unfold mbind, look. destruct (dict_get a d) as [f|]; [|discriminate]. simpl.
        destruct (f en MIM rest (ci ++ [KS a]) PayNone s) as [s1 [r1|]]; [|discriminate].
        intros [= <- <-]. reflexivity. }
      assert (Hnn : NoDup (map (fun k : string => k) l)) by (rewrite map_id; exact Hx).
      assert (Hone : forall k v, lfx
          (b <- (f <- look d k ;; r <- f en MIM rest (ci ++ [KS k]) PayNone ;; mret (k, r)) ;; mret (snd b))
          (b <- (f <- look d k ;; r <- f en MSet rest (ci ++ [KS k]) v ;; mret (k, r)) ;; mret (snd b))).
      { intros k v sg sg' rr st st' r Hg Hw. unfold look in Hg, Hw. destruct (dict_get k d) as [f|] eqn:E; [|discriminate].
        eapply (lfx_snd _ _ k k (Hd ci k f Hgood (dict_get_In _ _ _ E) rest v Hr Hrn)); eauto. }
      destruct p as [| | |l0|kv|p']; try (apply (lfx_dict _ _ _ _ (fun k => k) Hnn Hkey); intros k Hin; right; exists k; auto).
      apply (lfx_dict _ _ _ _ (fun k => k) Hnn Hkey). intros [k v] Hin. apply filter_In in Hin as [_ Hin].
      right. exists k. split; [now apply str_mem_In|]. apply (Hone k v).
    + apply Hdict; repeat constructor.
    + destruct Hx.
Qed.


Lemma lfx_travS en s : forall ci, Good (en_map en) ci s -> lfxclos en ci (travS zero s).
Proof.
  induction s as [es order IH] using structure_ind2. intros ci Hg pi p Hnf Hne. rewrite !travS_eq.
  apply (lfx_travS_body en (mkStruct es order)); [apply NoDup_pydict| |exact Hg|exact Hnf|exact Hne].
  clear ci Hg pi p Hnf Hne. intros ci k f Hg Hin. unfold sdictT in Hin. apply in_pydict in Hin. simpl in Hin.
  apply in_map_iff in Hin as (e & [= <- <-] & He). intros pi p Hnf Hne. rewrite !travE_eq.
  apply (lfx_travD en (mkStruct es order) e ci He Hg) with (idx := []) (dims := e_dims e); [|reflexivity|exact Hnf|exact Hne].
  intros idx f Hl. unfold subT. destruct (e_struct e) as [s'|] eqn:Es; [|discriminate]. intros [= <-].
  apply (IH e s' He Es). exact (Good_sub _ _ (mkStruct es order) e s' idx He Es Hl Hg).
Qed.
End L.

Theorem writes_local_symm s c (st st' : pstate) pi v rr r :
  Wf s -> casadi_structure s = Ok c -> no_fun pi -> names_end pi -> i_get zero s pi = Ok rr ->
  setitem zero s (num_env c) pi v st = (st', r) ->
  length (ps_master st') = length (ps_master st) /\
  forall k, ~ In k (positions rr) -> ~ InSymm s c k -> nth_error (ps_master st') k = nth_error (ps_master st) k.
Proof.
  intros Hw Hc Hnf Hne Hi Hset. destruct (i_get_run zero s c pi rr Hc Hi) as (sg' & E).
  assert (G : forall k, ~ InSymm s c k -> unchanged (positions rr ++ filter (fun x => negb (Nat.eqb x k)) (seq 0 (cs_size c))) st st').
  { intros k Hk. eapply (lfx_travS (filter (fun x => negb (Nat.eqb x k)) (seq 0 (cs_size c))) (num_env c) s []); [|exact Hnf|exact Hne|exact E|exact Hset].
    cbn [num_env en_map]. split.
    - intros r0 e m Hr Hs Hm. cbn [app] in Hm. destruct (map_ok s c r0 m Hw Hc Hm) as ((e' & Ha) & Hok & _ & Hb & _).
      split; [exact Hok|]. pose proof (RAt_At s r0 e e' Hw Hr Ha) as ->. intros x Hx. apply filter_In. split.
      + apply in_seq. rewrite Forall_forall in Hb. specialize (Hb x Hx). lia.
      + apply negb_true_iff, Nat.eqb_neq. intros ->. apply Hk. exists r0, e, m. auto.
    - intros r0 z r' Hr. cbn [app]. apply (map_None s c _ Hw Hc). intros (e' & Ha). destruct Hr as [->|(e & Hr)].
      + destruct (At_starts _ _ _ Ha) as (n & q & Eq). discriminate.
      + exact (RAt_dead s r0 e Hr Hw z r' e' Ha). }
  split.
  - assert (Hno : ~ InSymm s c (cs_size c)).
    { intros (ci & e & m & _ & _ & Hm & Hk). destruct (map_ok s c ci m Hw Hc Hm) as (_ & _ & _ & Hb & _).
      rewrite Forall_forall in Hb. specialize (Hb _ Hk). lia. }
    exact (proj1 (G _ Hno)).
  - intros k Hk Hs. apply (proj2 (G k Hs)). intros H. apply in_app_iff in H as [H|H]; [contradiction|].
    apply filter_In in H as [_ H]. rewrite Nat.eqb_refl in H. discriminate.
Qed.
End P.
