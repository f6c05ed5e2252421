(** Negative and out-of-range indices, slices, pending dimensions, names (C12-C16). *)
From Verif Require Import PyBase IndexModel DMModel StructModel StructSpec PowerModel PowerSpec
  IndexProofs StructProofs LayoutProofs LayoutThms LayoutExamples DMProofs PowerProofs PowerThms SliceProofs.

Section P.
Context {T : Type} (zero : T).
Notation rval := (rval T).
Notation pel := (pel T).
Notation pay := (pay T).
Notation env := (env T).
Notation einfo := (einfo T).
Notation pstate := (pstate T).
Notation clos := (@clos T).

(** ** C12 *)
Lemma within_from_ends dims idx : Forall2 (fun i d => (- d <= i < d)%Z) idx dims <-> 
  (length idx = length dims /\ InDims (from_ends dims idx) dims).
Proof.
  revert idx. induction dims as [|d ds IH]; intros [|i idx]; unfold from_ends; simpl.
  - split; [intros _; split; constructor|constructor].
  - split; [inversion 1|intros [H _]; discriminate].
  - split; [inversion 1|intros [H _]; discriminate].
  - specialize (IH idx). unfold from_ends in IH. split.
    + intros H. inversion H as [|? ? ? ? H1 H2]; subst. apply IH in H2 as [H3 H4]. split; [lia|].
      constructor; [|exact H4]. simpl. unfold from_end. destruct (i <? 0)%Z eqn:E; lia.
    + intros [H1 H2]. inversion H2 as [|? ? ? ? H3 H4]; subst. constructor.
      * unfold from_end in H3. simpl in H3. destruct (i <? 0)%Z eqn:E; lia.
      * apply IH. split; [lia|exact H4].
Qed.

Lemma Within_At s raw ci e : Addr s raw ci e -> Wf s -> Within s raw -> At s ci e.
Proof.
  induction 1 as [s e idx He Hl|s e idx s' raw ci e' He Es Hl Ha IH]; intros Hw Hin.
  - inversion Hin as [s0 e0 idx0 He0 Hd0 E1|s0 e0 idx0 s1 raw1 He0 Es0 Hd0 Ha1 E1]; subst.
    + pose proof (name_inj _ _ _ (Wf_NoDup _ Hw) He0 He H) as ->.
      assert (length idx0 = length idx) by (rewrite (Forall2_len _ _ _ Hd0), Hl; reflexivity).
      pose proof (map_KI_app_inv idx0 idx [] []) as Hi. rewrite !app_nil_r in Hi. destruct (Hi H0 H1) as [-> _].
      apply At_here; auto. apply within_from_ends in Hd0. apply Hd0.
    + exfalso. assert (Hst : starts_name raw1) by (destruct Ha1; eexists; eexists; reflexivity).
      destruct Hst as (n & r & ->). symmetry in H0. exact (KS_not_in_KI _ _ _ _ H0).
  - inversion Hin as [s0 e0 idx0 He0 Hd0 E1|s0 e0 idx0 s1 raw1 He0 Es0 Hd0 Ha1 E1]; subst.
    + exfalso. destruct (proj1 (Addr_starts _ _ _ _ Ha)) as (n & r & ->). exact (KS_not_in_KI _ _ _ _ H0).
    + pose proof (name_inj _ _ _ (Wf_NoDup _ Hw) He0 He H) as ->.
      assert (length idx0 = length idx) by (rewrite (Forall2_len _ _ _ Hd0), Hl; reflexivity).
      destruct (map_KI_app_inv _ _ _ _ H0 H1) as [-> ->]. rewrite Es in Es0. injection Es0 as <-.
      eapply At_sub; eauto.
      * apply within_from_ends in Hd0. apply Hd0.
      * apply IH; auto. eapply Wf_sub; eauto.
Qed.

Lemma At_Within s raw ci e e' : Addr s raw ci e -> Wf s -> At s ci e' -> Within s raw.
Proof.
  intros H. revert e'. induction H as [s e idx He Hl|s e idx s' raw ci e' He Es Hl Ha IH]; intros e1 Hw Hin.
  - inversion Hin as [s0 e0 idx0 He0 Hd0 E1|s0 e0 idx0 s1 ci1 e2 He0 Es0 Hd0 Ha1 E1]; subst.
    + pose proof (name_inj _ _ _ (Wf_NoDup _ Hw) He0 He H) as ->.
      assert (length idx0 = length (from_ends (e_dims e) idx)).
      { rewrite (Forall2_len _ _ _ Hd0). unfold from_ends. rewrite map_length, combine_length. lia. }
      pose proof (map_KI_app_inv idx0 (from_ends (e_dims e) idx) [] []) as Hi. rewrite !app_nil_r in Hi. destruct (Hi H0 H1) as [-> _].
      apply Within_here; auto. apply within_from_ends. auto.
    + exfalso. destruct (At_starts _ _ _ Ha1) as (n & r & ->). symmetry in H0. exact (KS_not_in_KI _ _ _ _ H0).
  - inversion Hin as [s0 e0 idx0 He0 Hd0 E1|s0 e0 idx0 s1 ci1 e2 He0 Es0 Hd0 Ha1 E1]; subst.
    + exfalso. destruct (proj2 (Addr_starts _ _ _ _ Ha)) as (n & r & ->). exact (KS_not_in_KI _ _ _ _ H0).
    + pose proof (name_inj _ _ _ (Wf_NoDup _ Hw) He0 He H) as ->.
      assert (length idx0 = length (from_ends (e_dims e) idx)).
      { rewrite (Forall2_len _ _ _ Hd0). unfold from_ends. rewrite map_length, combine_length. lia. }
      destruct (map_KI_app_inv _ _ _ _ H0 H1) as [-> ->]. rewrite Es in Es0. injection Es0 as <-.
      eapply Within_sub; eauto.
      * apply within_from_ends. auto.
      * eapply IH; eauto. eapply Wf_sub; eauto.
Qed.

(** A raw address within range means its canonical address, in reads and writes,
    with any further index behind it. *)
Theorem negative_canonical s c (st : pstate) raw ci e rest v :
  Wf s -> Addr s raw ci e -> Within s raw ->
  At s ci e /\
  getitem zero s (num_env c) (pidx raw ++ rest) st = getitem zero s (num_env c) (pidx ci ++ rest) st /\
  setitem zero s (num_env c) (pidx raw ++ rest) v st = setitem zero s (num_env c) (pidx ci ++ rest) v st.
Proof.
  intros Hw Ha Hin. pose proof (Within_At s raw ci e Ha Hw Hin) as Hat. split; [exact Hat|].
  unfold getitem, setitem. rewrite !(travS_addr zero s raw ci e Ha Hw), !(travS_at zero s ci e Hat Hw). auto.
Qed.

(** Out of range: every kind of access raises and writes nothing. *)
Theorem out_of_range s c (st : pstate) raw ci e v :
  Wf s -> casadi_structure s = Ok c -> Addr s raw ci e -> ~ Within s raw ->
  getitem zero s (num_env c) (pidx raw) st = Err EException /\
  setitem zero s (num_env c) (pidx raw) v st = (st, Err EException) /\
  i_get zero s (pidx raw) = Err EException /\ f_get zero s (pidx raw) = Err EException.
Proof.
  intros Hw Hc Ha Hn.
  assert (Hmap : cmap_get ci (cs_map c) = None).
  { apply (map_None s c ci Hw Hc). intros (e' & He'). apply Hn. eapply At_Within; eauto. }
  assert (G : forall md p st, md <> MInject ->
     travS zero s (Env (cs_map c) [] KPlain []) md (@pidx T raw) [] p st = (st, Err EException)).
  { intros md p st0 Hmd. rewrite <- (app_nil_r (pidx raw)), (travS_addr zero s raw ci e Ha Hw). cbn [endD]. now apply dispatch_None. }
  unfold getitem, setitem, i_get, f_get, index_getter, num_env. rewrite Hc. cbn [rbind]. rewrite !G by discriminate. auto.
Qed.

(** Exactly the integers [-n <= i < n] are accepted for a primitive entry. *)
Theorem int_accepted_iff s c (st : pstate) raw ci e :
  Obj s c st -> Addr s raw ci e -> e_struct e = None -> e_symm e = false ->
  ((exists R, getitem zero s (num_env c) (pidx raw) st = Ok R) <-> Within s raw).
Proof.
  intros Ho Ha He Hs. pose proof (ob_wf _ _ _ Ho) as Hw. pose proof (ob_built _ _ _ Ho) as Hc. split.
  - intros (R & HR). destruct (cmap_get ci (cs_map c)) as [m|] eqn:E.
    + destruct (map_ok s c ci m Hw Hc E) as ((e' & He') & _). eapply At_Within; eauto.
    + unfold getitem in HR. rewrite <- (app_nil_r (pidx raw)), (travS_addr zero s raw ci e Ha Hw) in HR. cbn [endD] in HR.
      rewrite dispatch_None in HR by (auto; discriminate). discriminate.
  - intros Hin. destruct (negative_canonical s c st raw ci e [] PayNone Hw Ha Hin) as (Hat & E & _).
    rewrite !app_nil_r in E. rewrite E. destruct (map_get_leaf s c ci e Hw Hc (At_Leaf _ _ _ Hat He)) as (m & Hm & _).
    eexists. eapply getitem_at; eauto.
Qed.

(** The same for an entry that holds a structure: a block is found unless the
    sub-structure has no entries. *)
Theorem int_accepted_block s c (st : pstate) raw ci e s' :
  Obj s c st -> Addr s raw ci e -> e_struct e = Some s' -> e_symm e = false -> leaves s' <> [] ->
  ((exists R, getitem zero s (num_env c) (pidx raw) st = Ok R) <-> Within s raw).
Proof.
  intros Ho Ha He Hs Hne. pose proof (ob_wf _ _ _ Ho) as Hw. pose proof (ob_built _ _ _ Ho) as Hc. split.
  - intros (R & HR). destruct (cmap_get ci (cs_map c)) as [m|] eqn:E.
    + destruct (map_ok s c ci m Hw Hc E) as ((e' & He') & _). eapply At_Within; eauto.
    + unfold getitem in HR. rewrite <- (app_nil_r (pidx raw)), (travS_addr zero s raw ci e Ha Hw) in HR. cbn [endD] in HR.
      rewrite dispatch_None in HR by (auto; discriminate). discriminate.
  - intros Hin. destruct (negative_canonical s c st raw ci e [] PayNone Hw Ha Hin) as (Hat & E & _).
    rewrite !app_nil_r in E. rewrite E.
    pose proof (At_Block _ _ _ _ Hat He) as Hb. destruct (Block_segment s ci s' Hw Hb) as (l1 & l2 & Hseg).
    eexists. eapply getitem_at; eauto. eapply (map_block s c ci s' l1 l2); eauto.
Qed.

(** ** C13 *)
Lemma travD_prefix en ei sub : forall ds1 ds2 idx md rest ci p st, length idx = length ds1 ->
  travD zero en ei sub (ds1 ++ ds2) md (map (fun i => PInt i) idx ++ rest) ci p st =
  mwrap (travD zero en ei sub ds2 md rest (ci ++ map KI (from_ends ds1 idx)) p) st.
Proof.
  induction ds1 as [|d ds IH]; intros ds2 idx md rest ci p st Hl.
  - destruct idx; [|discriminate]. simpl app. rewrite app_nil_r. 
    destruct ds2; cbn [travD]; [|destruct rest]; symmetry; apply mwrap_mwrap.
  - destruct idx as [|i idx]; [discriminate|]. simpl in Hl. cbn [map app travD].
    transitivity (mwrap (mwrap (travD zero en ei sub ds2 md rest (ci ++ map KI (from_ends (d :: ds) (i :: idx))) p)) st);
      [|apply mwrap_mwrap].
    apply mwrap_eq. rewrite IH by lia. rewrite <- app_assoc. reflexivity.
Qed.

Definition readD (en : env) (ei : einfo) (sub : option clos) (ds : list Z) (md : mode) (rest : list pel) (ci : cidx) (d : Z) (st : pstate) (i : Z) : res rval :=
  snd (travD zero en ei sub ds md rest (ci ++ [KI (canonical i d)]) PayNone st).

Lemma many_pure en ei sub ds md rest ci d st l : pure_mode md = true -> (forall f, sub = Some f -> pclos f) ->
  mmapM (fun k => match k with
                     | KS _ => merr EType
                     | KI i => p' <- mlift (payloadUnpack PayNone k) ;;
                               travD zero en ei sub ds md rest (ci ++ [KI (canonical i d)]) p'
                     end) (map KI l) st = (st, rmapM (readD en ei sub ds md rest ci d st) l).
Proof.
  intros Hm Hsub. rewrite mmapM_pure.
  - f_equal. induction l as [|i l IH]; [reflexivity|]. simpl. rewrite IH. reflexivity.
  - intros k Hk. apply in_map_iff in Hk as (i & <- & _). apply pure_bind; [apply pure_lift|]. intros. now apply pure_travD.
Qed.

Lemma subT_pure e f : subT zero e = Some f -> pclos f.
Proof. unfold subT. destruct (e_struct e); [|discriminate]. intros [= <-]. apply pure_travS. Qed.

Definition wrapE {A} (r : res A) : res A := match r with Ok a => Ok a | Err _ => Err EException end.

Lemma mwrap_snd {A} (m : @M T A) st : snd (mwrap m st) = wrapE (snd (m st)).
Proof. unfold mwrap. destruct (m st) as [s [a|e]]; reflexivity. Qed.

Lemma readD_wrapped en ei sub ds md rest ci d st i : wrapE (readD en ei sub ds md rest ci d st i) = readD en ei sub ds md rest ci d st i.
Proof.
  unfold readD. rewrite <- mwrap_snd. f_equal. destruct ds; cbn [travD]; [|destruct rest]; apply mwrap_mwrap.
Qed.
Lemma rmapM_wrapped {A B} (f : A -> res B) l : (forall a, wrapE (f a) = f a) -> wrapE (rmapM f l) = rmapM f l.
Proof.
  intros H. induction l as [|a l IH]; [reflexivity|]. simpl. pose proof (H a) as Ha. destruct (f a) as [b|e]; simpl in *; [|congruence].
  destruct (rmapM f l); simpl in *; congruence.
Qed.

(** Reading with a slice in a repeat dimension = the list of the reads at its positions. *)
Lemma getitem_slice s e ds1 d ds2 idx sl rest en st :
  NoDup (map e_name (s_entries s)) -> In e (s_entries s) -> e_dims e = ds1 ++ d :: ds2 -> length idx = length ds1 ->
  getitem zero s en (PStr (e_name e) :: map (fun i => PInt i) idx ++ PSlc sl :: rest) st =
  wrapE (let* l := slice_range sl d in
         rmap (@RList T) (rmapM (readD en (info zero e) (subT zero e) ds2 MGet rest (KS (e_name e) :: map KI (from_ends ds1 idx)) d st) l)).
Proof.
  intros Hnd He Hd Hl. unfold getitem. rewrite travS_name by assumption. rewrite Hd.
  rewrite mwrap_snd, travD_prefix by exact Hl. rewrite mwrap_snd. cbn [travD]. rewrite mwrap_snd.
  unfold mbind at 1. unfold mlift at 1. destruct (slice_range sl d) as [l|x]; cbn [rbind]; [|reflexivity].
  unfold mbind at 1. rewrite many_pure; [|reflexivity|apply subT_pure]. simpl ([] ++ _).
  destruct (rmapM _ l); reflexivity.
Qed.
Lemma getitem_int s e ds1 d ds2 idx i rest en st :
  NoDup (map e_name (s_entries s)) -> In e (s_entries s) -> e_dims e = ds1 ++ d :: ds2 -> length idx = length ds1 ->
  getitem zero s en (PStr (e_name e) :: map (fun i => PInt i) idx ++ PInt i :: rest) st =
  readD en (info zero e) (subT zero e) ds2 MGet rest (KS (e_name e) :: map KI (from_ends ds1 idx)) d st i.
Proof.
  intros Hnd He Hd Hl. unfold getitem. rewrite travS_name by assumption. rewrite Hd.
  rewrite mwrap_snd, travD_prefix by exact Hl. rewrite mwrap_snd. cbn [travD]. rewrite mwrap_snd.
  change (wrapE (wrapE (wrapE (readD en (info zero e) (subT zero e) ds2 MGet rest (KS (e_name e) :: map KI (from_ends ds1 idx)) d st i))) =
    readD en (info zero e) (subT zero e) ds2 MGet rest (KS (e_name e) :: map KI (from_ends ds1 idx)) d st i).
  now rewrite !readD_wrapped.
Qed.

Lemma rmapM_nth {A B} (f : A -> res B) l bs : rmapM f l = Ok bs -> Forall2 (fun a b => f a = Ok b) l bs.
Proof. intros H. now apply rmapM_Ok. Qed.
Lemma rmapM_of {A B} (f : A -> res B) l bs : Forall2 (fun a b => f a = Ok b) l bs -> rmapM f l = Ok bs.
Proof. induction 1 as [|a b l bs H HF IH]; [reflexivity|]. simpl. rewrite H, IH. reflexivity. Qed.

Lemma Forall2_nth {A B} (R : A -> B -> Prop) l l' : Forall2 R l l' -> forall i a, nth_error l i = Some a -> exists b, nth_error l' i = Some b /\ R a b.
Proof. induction 1; intros [|i] a0 Ha; simpl in *; try discriminate; eauto. injection Ha as <-. eauto. Qed.
Lemma nth_error_pyrange d i : (0 <= i < d)%Z -> nth_error (pyrange d) (Z.to_nat i) = Some i.
Proof.
  intros Hi. unfold pyrange. replace i with (Z.of_nat (Z.to_nat i)) at 2 by lia. apply map_nth_error.
  rewrite (nth_error_nth' _ 0) by (rewrite seq_length; lia). rewrite seq_nth by lia. f_equal.
Qed.

Theorem slice_read s (en : env) (st : pstate) e ds1 d ds2 idx rest l :
  Wf s -> In e (s_entries s) -> e_dims e = ds1 ++ d :: ds2 -> length idx = length ds1 ->
  getitem zero s en (PStr (e_name e) :: map (fun i => PInt i) idx ++ PSlc slice_all :: rest) st = Ok (RList l) ->
  Z.of_nat (length l) = d /\
  (forall i x, nth_error l i = Some x ->
     getitem zero s en (PStr (e_name e) :: map (fun i => PInt i) idx ++ PInt (Z.of_nat i) :: rest) st = Ok x) /\
  forall sl, sl_step sl <> Some 0%Z ->
  getitem zero s en (PStr (e_name e) :: map (fun i => PInt i) idx ++ PSlc sl :: rest) st = Ok (RList (py_slice l sl)).
Proof.
  intros Hw He Hd Hl. pose proof (Wf_NoDup _ Hw) as Hnd. rewrite (getitem_slice s e ds1 d ds2 idx) by assumption.
  destruct (Z_lt_le_dec d 0) as [Hneg|Hpos]; [rewrite slice_range_neg by exact Hneg; discriminate|].
  rewrite slice_range_all by exact Hpos. cbn [rbind].
  set (f := readD en (info zero e) (subT zero e) ds2 MGet rest (KS (e_name e) :: map KI (from_ends ds1 idx)) d st).
  destruct (rmapM f (pyrange d)) as [l'|] eqn:E; [|discriminate]. cbn. intros [= <-].
  apply rmapM_nth in E. pose proof (Forall2_len _ _ _ E) as Elen. rewrite pyrange_length in Elen.
  assert (Hlen : Z.of_nat (length l') = d) by lia. split; [exact Hlen|].
  assert (Hat : forall i, (0 <= i < d)%Z -> exists x, nth_error l' (Z.to_nat i) = Some x /\ f i = Ok x).
  { intros i Hi. exact (Forall2_nth _ _ _ E _ _ (nth_error_pyrange d i Hi)). }
  split.
  - intros i x Hx. rewrite (getitem_int s e ds1 d ds2) by assumption. fold f.
    assert (Hi : (0 <= Z.of_nat i < d)%Z) by (assert (i < length l') by (apply nth_error_Some; congruence); lia).
    destruct (Hat _ Hi) as (y & Hy & Hf). rewrite Nat2Z.id in Hy. congruence.
  - intros sl Hsl. rewrite (getitem_slice s e ds1 d ds2 idx) by assumption. fold f.
    rewrite slice_range_positions by assumption. cbn [rbind]. unfold py_slice. rewrite Hlen.
    assert (Hin : forall i, In i (py_slice_positions d sl) -> (0 <= i < d)%Z) by apply py_slice_positions_in.
    assert (G : rmapM f (py_slice_positions d sl) = Ok (flat_map (fun i => match nth_error l' (Z.to_nat i) with Some x => [x] | None => [] end) (py_slice_positions d sl))).
    { revert Hin. generalize (py_slice_positions d sl). induction l as [|i l IH]; intros Hin; [reflexivity|].
      cbn [rmapM flat_map]. destruct (Hat i (Hin i (or_introl eq_refl))) as (x & Hx & ->). rewrite Hx. cbn [rbind].
      rewrite IH by (intros; apply Hin; now right). reflexivity. }
    rewrite G. reflexivity.
Qed.

(** A zero step is a ValueError, wrapped. *)
Theorem slice_step0 s (en : env) (st : pstate) e ds1 d ds2 idx rest a b :
  Wf s -> In e (s_entries s) -> e_dims e = ds1 ++ d :: ds2 -> length idx = length ds1 ->
  getitem zero s en (PStr (e_name e) :: map (fun i => PInt i) idx ++ PSlc (Slc a b (Some 0%Z)) :: rest) st = Err EException.
Proof.
  intros Hw He Hd Hl. rewrite (getitem_slice s e ds1 d ds2 idx) by auto using Wf_NoDup.
  rewrite slice_range_step0; reflexivity.
Qed.

(** ** C14 *)
Lemma travD_colons en ei sub : forall dims k md ci p st, k <= length dims ->
  travD zero en ei sub dims md (repeat (PSlc slice_all) k) ci p st = travD zero en ei sub dims md [] ci p st.
Proof.
  induction dims as [|d ds IH]; intros k md ci p st Hk.
  - destruct k; [reflexivity|simpl in Hk; lia].
  - destruct k as [|k]; [reflexivity|]. simpl in Hk. cbn [repeat travD]. apply mwrap_eq.
    apply mbind_eq; [reflexivity|]. intros l s. apply mbind_eq; [|reflexivity].
    apply mmapM_eq. intros [n|i] s' _; [reflexivity|]. apply mbind_eq; [reflexivity|]. intros p' s''. apply IH. lia.
Qed.

(** In every mode (read, write with any payload, [s.i], [s.f]). *)
Theorem pending_colons s (en : env) e ds1 ds2 idx k md p (st : pstate) :
  Wf s -> In e (s_entries s) -> e_dims e = ds1 ++ ds2 -> length idx = length ds1 -> k <= length ds2 ->
  travS zero s en md (PStr (e_name e) :: map (fun i => PInt i) idx ++ repeat (PSlc slice_all) k) [] p st =
  travS zero s en md (PStr (e_name e) :: map (fun i => PInt i) idx) [] p st.
Proof.
  intros Hw He Hd Hl Hk. rewrite !travS_name by auto using Wf_NoDup. rewrite Hd. apply mwrap_eq.
  rewrite travD_prefix by exact Hl. rewrite <- (app_nil_r (map _ idx)), travD_prefix by exact Hl.
  apply mwrap_eq. now apply travD_colons.
Qed.

Lemma travD_nested en ei sub st : (forall f, sub = Some f -> pclos f) -> forall dims ci (f : list Z -> rval), Forall (fun d => (0 <= d)%Z) dims ->
  (forall idx, InDims idx dims -> snd (travD zero en ei sub dims MGet (map (fun i => PInt i) idx) ci PayNone st) = Ok (f idx)) ->
  snd (travD zero en ei sub dims MGet [] ci PayNone st) = Ok (nested dims f).
Proof.
  intros Hsub. induction dims as [|d ds IH]; intros ci f Hpos H.
  - apply (H []). constructor.
  - apply Forall_cons_iff in Hpos as [Hd Hpos]. cbn [travD nested]. rewrite mwrap_snd. rewrite slice_range_all by exact Hd.
    unfold mbind, mlift. rewrite mmapM_pure.
    + match goal with |- context [rmapM ?g ?l] => assert (E : rmapM g l = Ok (map (fun i => nested ds (fun idx => f (i :: idx))) (pyrange d))) end.
      { apply rmapM_of. assert (Hin : forall i, In i (pyrange d) -> (0 <= i < d)%Z) by (intros i; apply in_pyrange). revert Hin.
        generalize (pyrange d). induction l as [|i l IHl]; intros Hin; simpl; constructor; [|apply IHl; intros; apply Hin; now right].
        apply IH; [exact Hpos|]. intros idx Hidx. specialize (Hin i (or_introl eq_refl)).
        assert (Hi : InDims (i :: idx) (d :: ds)) by (constructor; assumption). specialize (H _ Hi). cbn [map travD] in H.
        rewrite mwrap_snd in H. unfold wrapE in H.
        replace (canonical i d) with i in * by (unfold canonical; destruct (i <? 0)%Z eqn:Ei; [lia|reflexivity]).
        destruct (snd (travD zero en ei sub ds MGet (map (fun i0 => PInt i0) idx) (ci ++ [KI i]) PayNone st)); congruence. }
      rewrite E. reflexivity.
    + intros k Hk. apply in_map_iff in Hk as (i & <- & _). intros st0. simpl. now apply pure_travD.
Qed.

Theorem pending_nested s (en : env) e ds1 ds2 idx (st : pstate) (f : list Z -> rval) :
  Wf s -> In e (s_entries s) -> e_dims e = ds1 ++ ds2 -> length idx = length ds1 -> Forall (fun d => (0 <= d)%Z) ds2 ->
  (forall jdx, InDims jdx ds2 ->
     getitem zero s en (PStr (e_name e) :: map (fun i => PInt i) (idx ++ jdx)) st = Ok (f jdx)) ->
  getitem zero s en (PStr (e_name e) :: map (fun i => PInt i) idx) st = Ok (nested ds2 f).
Proof.
  intros Hw He Hd Hl Hpos H. unfold getitem. rewrite travS_name by auto using Wf_NoDup. rewrite Hd.
  rewrite <- (app_nil_r (map _ idx)), mwrap_snd, travD_prefix by exact Hl. rewrite mwrap_snd.
  rewrite (travD_nested en (info zero e) (subT zero e) st (subT_pure e) ds2 _ f Hpos); [reflexivity|].
  intros jdx Hj. specialize (H jdx Hj). unfold getitem in H. rewrite travS_name in H by auto using Wf_NoDup.
  rewrite Hd, map_app, mwrap_snd, travD_prefix, mwrap_snd in H by exact Hl.
  simpl ([] ++ _) in H. destruct (snd (travD zero en (info zero e) (subT zero e) ds2 MGet (map (fun i => PInt i) jdx) _ PayNone st)) eqn:E;
    simpl in H; [|discriminate]. injection H as ->. first [exact E|reflexivity].
Qed.

(** A missing index of a dimension of negative length raises. *)
Theorem pending_negative s (en : env) e ds1 d ds2 idx (st : pstate) :
  Wf s -> In e (s_entries s) -> e_dims e = ds1 ++ d :: ds2 -> length idx = length ds1 -> (d < 0)%Z ->
  getitem zero s en (PStr (e_name e) :: map (fun i => PInt i) idx) st = Err EException.
Proof.
  intros Hw He Hd Hl Hneg. unfold getitem. rewrite travS_name by auto using Wf_NoDup. rewrite Hd.
  rewrite <- (app_nil_r (map _ idx)), mwrap_snd, travD_prefix by exact Hl. rewrite mwrap_snd. cbn [travD]. rewrite mwrap_snd.
  rewrite slice_range_neg by exact Hneg. reflexivity.
Qed.

(** ** C15 *)
Lemma travS_str s (en : env) md n rest ci p st : travS zero s en md (PStr n :: rest) ci p st =
  mwrap (f <- look (sdictT zero s) n ;; f en md rest (ci ++ [KS n]) p) st.
Proof. rewrite travS_eq. reflexivity. Qed.

Lemma getitem_wrapped s (en : env) pi st : wrapE (getitem zero s en pi st) = getitem zero s en pi st.
Proof.
  unfold getitem. rewrite travS_eq, <- mwrap_snd. f_equal. destruct pi; cbn [travS_body]; apply mwrap_mwrap.
Qed.

Lemma sdictT_pure s k f : dict_get k (sdictT zero s) = Some f -> pclos f.
Proof.
  intros H. apply dict_get_In in H. unfold sdictT in H. apply in_pydict in H. apply in_map_iff in H as (e & [= <- <-] & He).
  intros en md pi ci p Hm. rewrite travE_eq. apply pure_travD; [|exact Hm]. apply subT_pure.
Qed.

Lemma rmapM_wrap_ext {A B} (f g : A -> res B) l : (forall a, In a l -> wrapE (f a) = g a) -> wrapE (rmapM f l) = rmapM g l.
Proof.
  induction l as [|a l IH]; intros H; [reflexivity|]. simpl. rewrite <- (H a (or_introl eq_refl)).
  rewrite <- IH by (intros; apply H; now right). destruct (f a); simpl; [|reflexivity]. destruct (rmapM f l); reflexivity.
Qed.

Theorem ellipsis_read s (en : env) rest (st : pstate) :
  getitem zero s en (PEll :: rest) st = rmap (@RList T) (rmapM (fun k => getitem zero s en (PStr k :: rest) st) (s_keys s)).
Proof.
  unfold getitem at 1. rewrite travS_eq. cbn [travS_body]. rewrite mwrap_snd. unfold mbind at 1. rewrite mmapM_pure.
  - match goal with |- context [rmapM ?g0 _] => set (g := g0) end. 
    assert (E : wrapE (rmapM g (enum (s_keys s))) = rmapM (fun k => getitem zero s en (PStr k :: rest) st) (s_keys s)).
    { unfold enum. generalize 0 at 1. induction (s_keys s) as [|k l IH]; intros n; [reflexivity|]. cbn [length seq map List.combine rmapM].
      specialize (IH (S n)).
      assert (Ek : wrapE (g (Z.of_nat n, k)) = getitem zero s en (PStr k :: rest) st).
      { unfold g, getitem. rewrite travS_str, mwrap_snd. reflexivity. }
      rewrite <- Ek, <- IH. destruct (g (Z.of_nat n, k)); [|reflexivity]. simpl. destruct (rmapM g _); reflexivity. }
    rewrite <- E. destruct (rmapM g _); reflexivity.
  - intros [i k] _. apply pure_look_bind. intros f Hf. apply pure_bind; [apply pure_lift|]. intros p.
    unfold sdictT in Hf. apply in_pydict in Hf. apply in_map_iff in Hf as (e & [= <- <-] & He).
    rewrite travE_eq. apply pure_travD; [apply subT_pure|reflexivity].
Qed.

Lemma sdictT_list s : NoDup (map e_name (s_entries s)) -> sdictT zero s = map (fun e => (e_name e, travE zero e)) (s_entries s).
Proof. intros H. unfold sdictT. apply pydict_id. rewrite map_map. exact H. Qed.

Definition pair_with (s : structure) (en : env) (rest : list pel) (st : pstate) (n : string) : res (string * rval) :=
  rmap (fun r => (n, r)) (getitem zero s en (PStr n :: rest) st).

Lemma pair_fst s en rest st l bs : rmapM (pair_with s en rest st) l = Ok bs -> map fst bs = l.
Proof.
  intros H. apply rmapM_nth in H. induction H as [|n b l bs Hb HF IH]; [reflexivity|]. simpl. f_equal; [|exact IH].
  unfold pair_with in Hb. destruct (getitem _ _ _ _ _); [|discriminate]. now injection Hb as <-.
Qed.

Theorem dict_read s (en : env) rest (st : pstate) : Wf s ->
  getitem zero s en (PDict :: rest) st = rmap (@RDict T) (rmapM (pair_with s en rest st) (map e_name (s_entries s))).
Proof.
  intros Hw. pose proof (Wf_NoDup _ Hw) as Hnd. unfold getitem at 1. rewrite travS_eq. cbn [travS_body]. rewrite mwrap_snd.
  rewrite (sdictT_list s Hnd). unfold mdict, mbind at 1. rewrite mmapM_pure.
  - match goal with |- context [rmapM ?g0 _] => set (g := g0) end.
    assert (E : wrapE (rmapM g (map (fun e => (e_name e, travE zero e)) (s_entries s))) = rmapM (pair_with s en rest st) (map e_name (s_entries s))).
    { assert (Hin : forall e, In e (s_entries s) -> wrapE (g (e_name e, travE zero e)) = pair_with s en rest st (e_name e)).
      { intros e He. unfold pair_with, getitem, g. rewrite travS_name by assumption. rewrite mwrap_snd. cbn [fst snd].
        unfold mbind. rewrite travE_eq. simpl ([] ++ _). destruct (travD zero en (info zero e) _ _ _ _ _ _ _) as [s1 [r|x]]; reflexivity. }
      revert Hin. generalize (s_entries s). induction l as [|e l IH]; intros Hin; [reflexivity|]. cbn [map rmapM].
      rewrite <- (Hin e (or_introl eq_refl)), <- IH by (intros; apply Hin; now right).
      destruct (g (e_name e, travE zero e)); [|reflexivity]. simpl. destruct (rmapM g _); reflexivity. }
    destruct (rmapM g _) as [bs|x] eqn:Eg; simpl in E; rewrite <- E; [|reflexivity].
    simpl. rewrite pydict_id; [reflexivity|]. symmetry in E. apply pair_fst in E. rewrite E. exact Hnd.
  - intros [k f] Hin. apply in_map_iff in Hin as (e & [= <- <-] & He). apply pure_bind; [|intros; apply pure_ret].
    cbn [snd]. rewrite travE_eq. apply pure_travD; [apply subT_pure|reflexivity].
Qed.

Theorem set_read s (en : env) names rest (st : pstate) : NoDup names ->
  getitem zero s en (PSet names :: rest) st = rmap (@RDict T) (rmapM (pair_with s en rest st) names).
Proof.
  intros Hnn. unfold getitem at 1. rewrite travS_eq. cbn [travS_body]. rewrite mwrap_snd.
  unfold mdict, mbind at 1. rewrite mmapM_pure.
  - match goal with |- context [rmapM ?g0 _] => set (g := g0) end.
    assert (E : wrapE (rmapM g names) = rmapM (pair_with s en rest st) names).
    { apply rmapM_wrap_ext. intros n _. unfold pair_with, getitem, g. rewrite travS_str, mwrap_snd.
      unfold mbind, look. destruct (dict_get n (sdictT zero s)) as [f|]; [|reflexivity]. cbn.
      destruct (f en MGet rest _ PayNone st) as [s1 [r|x]]; reflexivity. }
    destruct (rmapM g names) as [bs|x] eqn:Eg; simpl in E; rewrite <- E; [|reflexivity].
    simpl. rewrite pydict_id; [reflexivity|]. symmetry in E. apply pair_fst in E. now rewrite E.
  - intros k _. apply pure_look_bind. intros f Hf. apply pure_bind; [|intros; apply pure_ret].
    unfold sdictT in Hf. apply in_pydict in Hf. apply in_map_iff in Hf as (e & [= <- <-] & He).
    rewrite travE_eq. apply pure_travD; [apply subT_pure|reflexivity].
Qed.

Theorem unknown_name s (en : env) md n rest p (st : pstate) : Wf s -> ~ In n (map e_name (s_entries s)) ->
  travS zero s en md (PStr n :: rest) [] p st = (st, Err EException).
Proof.
  intros Hw Hn. rewrite travS_str. unfold look. rewrite sdictT_None by auto using Wf_NoDup. reflexivity.
Qed.

(** ** C16 *)
Theorem names_read s c (st : pstate) names :
  Obj s c st ->
  (forall n, In n names -> exists e, In e (s_entries s) /\ e_name e = n /\ e_dims e = [] /\ e_symm e = false) ->
  getitem zero s (num_env c) [PLst (map KS names)] st =
  rmap (@RList T) (rmapM (fun n => getitem zero s (num_env c) [PStr n] st) names).
Proof.
  intros Ho Hn. pose proof (ob_wf _ _ _ Ho) as Hw. unfold getitem at 1. rewrite travS_eq. cbn [travS_body]. rewrite mwrap_snd.
  unfold mbind at 1. rewrite mmapM_pure.
  - match goal with |- context [rmapM ?g0 _] => set (g := g0) end.
    assert (E : wrapE (rmapM g (enum (map KS names))) = rmapM (fun n => getitem zero s (num_env c) [PStr n] st) names).
    { unfold enum. rewrite map_length. generalize 0 at 1. revert Hn. induction names as [|k l IH]; intros Hn n; [reflexivity|].
      cbn [length seq map List.combine rmapM]. specialize (IH (fun n h => Hn n (or_intror h)) (S n)).
      assert (Ek : wrapE (g (Z.of_nat n, KS k)) = getitem zero s (num_env c) [PStr k] st).
      { destruct (Hn k (or_introl eq_refl)) as (e & He & <- & Hd & Hs).
        unfold g, getitem. cbn [fst snd payloadUnpack]. rewrite (travS_name zero s e) by auto using Wf_NoDup.
        rewrite Hd, mwrap_snd. unfold mbind, mlift. cbn [travD travS_body]. rewrite !mwrap_snd. simpl. unfold getter. simpl.
        destruct (cmap_get _ _); [|reflexivity]. simpl. rewrite Hs. unfold mbind, mlift, get_master; simpl. destruct (correct_vector_indexing _ _); reflexivity. }
      rewrite <- Ek, <- IH. destruct (g (Z.of_nat n, KS k)); [|reflexivity]. simpl. destruct (rmapM g _); reflexivity. }
    rewrite <- E. destruct (rmapM g _); reflexivity.
  - intros [i k] _. apply pure_bind; [apply pure_lift|]. intros p. cbn [travS_body]. apply pure_wrap. now apply pure_dispatch.
Qed.
End P.
