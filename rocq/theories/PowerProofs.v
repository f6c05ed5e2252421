(** Lemmas about traversals by power indices. *)
From Verif Require Import PyBase IndexModel DMModel StructModel StructSpec PowerModel PowerSpec
  IndexProofs StructProofs LayoutProofs LayoutThms LayoutExamples DMProofs.

Section P.
Context {T : Type} (zero : T).
Notation rval := (rval T).
Notation pel := (pel T).
Notation pay := (pay T).
Notation env := (env T).
Notation einfo := (einfo T).
Notation pstate := (pstate T).
Notation clos := (@clos T).

(** ** The monad *)
Lemma mwrap_mwrap {A} (m : @M T A) st : mwrap (mwrap m) st = mwrap m st.
Proof. unfold mwrap. destruct (m st) as [s' [a|e]]; reflexivity. Qed.

Lemma mwrap_eq {A} (m m' : @M T A) st : m st = m' st -> mwrap m st = mwrap m' st.
Proof. unfold mwrap. now intros ->. Qed.

Lemma mwrap_fst {A} (m : @M T A) st : fst (mwrap m st) = fst (m st).
Proof. unfold mwrap. destruct (m st) as [s' [a|e]]; reflexivity. Qed.

Lemma mwrap_Ok {A} (m : @M T A) st st' a : mwrap m st = (st', Ok a) <-> m st = (st', Ok a).
Proof. unfold mwrap. destruct (m st) as [s' [b|e]]; split; congruence. Qed.

Lemma mbind_ret {A B} (a : A) (k : A -> @M T B) st : mbind (mret a) k st = k a st.
Proof. reflexivity. Qed.

Lemma mbind_eq {A B} (m m' : @M T A) (k k' : A -> @M T B) st :
  m st = m' st -> (forall a s, k a s = k' a s) -> mbind m k st = mbind m' k' st.
Proof. intros H K. unfold mbind. rewrite H. destruct (m' st) as [s [a|e]]; auto. Qed.

Lemma mmapM_eq {A B} (f g : A -> @M T B) l : (forall a s, In a l -> f a s = g a s) -> forall st, mmapM f l st = mmapM g l st.
Proof.
  induction l as [|a l IH]; intros H st; [reflexivity|]. simpl. unfold mbind.
  rewrite (H a st (or_introl eq_refl)). destruct (g a st) as [s [b|e]]; [|reflexivity].
  rewrite (IH (fun a s h => H a s (or_intror h))). reflexivity.
Qed.

(** ** Unfolding *)
Definition info (e : entry) : einfo :=
  EInfo (e_symm e) (e_orig e)
    (match e_shape e with
     | None => None
     | Some l => Some (map (fun d => match d with SDS s' => Some (index_getter s' (travS zero s')) | SDI _ => None end) l)
     end).
Definition subT (e : entry) : option clos := match e_struct e with None => None | Some s => Some (travS zero s) end.
Definition sdictT (s : structure) : list (string * clos) := pydict (map (fun e => (e_name e, travE zero e)) (s_entries s)).

Lemma travE_eq e en md pi ci p : travE zero e en md pi ci p = travD zero en (info e) (subT e) (e_dims e) md pi ci p.
Proof. destruct e; reflexivity. Qed.
Lemma travS_eq s en md pi ci p : travS zero s en md pi ci p = travS_body zero (sdictT s) (s_keys s) en md pi ci p.
Proof. destruct s; reflexivity. Qed.

Lemma sdictT_get s e : NoDup (map e_name (s_entries s)) -> In e (s_entries s) ->
  dict_get (e_name e) (sdictT s) = Some (travE zero e).
Proof.
  intros Hnd He. unfold sdictT. apply dict_get_pydict.
  - rewrite map_map. exact Hnd.
  - apply in_map_iff. exists e. auto.
Qed.
Lemma sdictT_None s n : NoDup (map e_name (s_entries s)) -> ~ In n (map e_name (s_entries s)) ->
  dict_get n (sdictT s) = None.
Proof.
  intros Hnd Hn. unfold sdictT. apply dict_get_pydict_None; rewrite map_map; assumption.
Qed.
Lemma Wf_NoDup s : Wf s -> NoDup (map e_name (s_entries s)).
Proof. destruct 1; assumption. Qed.
Lemma Wf_sub s e s' : Wf s -> In e (s_entries s) -> e_struct e = Some s' -> Wf s'.
Proof. destruct 1 as [es order H1 H2 H3 H4]. simpl. eauto. Qed.

Definition endD (en : env) (ei : einfo) (sub : option clos) (md : mode) (rest : list pel) (ci : cidx) (p : pay) : @M T rval :=
  match rest with
  | [] => dispatch zero en md p ci None (Some ei)
  | _ => match sub with
         | None => dispatch zero en md p ci (Some rest) (Some ei)
         | Some f => f en md rest ci p
         end
  end.

Lemma canonical_from_end i d : canonical i d = from_end d i.
Proof. reflexivity. Qed.

Lemma travD_ints en ei sub : forall dims idx md rest ci p st, length idx = length dims ->
  travD zero en ei sub dims md (map (fun i => PInt i) idx ++ rest) ci p st =
  mwrap (endD en ei sub md rest (ci ++ map KI (from_ends dims idx)) p) st.
Proof.
  induction dims as [|d ds IH]; intros idx md rest ci p st Hl.
  - destruct idx; [|discriminate]. simpl. rewrite app_nil_r. apply mwrap_eq. reflexivity.
  - destruct idx as [|i idx]; [discriminate|]. simpl in Hl. cbn [map app travD].
    transitivity (mwrap (mwrap (endD en ei sub md rest (ci ++ map KI (from_ends (d :: ds) (i :: idx))) p)) st);
      [|apply mwrap_mwrap].
    apply mwrap_eq. rewrite IH by lia. rewrite <- app_assoc. reflexivity.
Qed.

Lemma from_ends_in dims idx : InDims idx dims -> from_ends dims idx = idx.
Proof.
  intros H. induction H as [|i d idx dims Hi Hd IH]; [reflexivity|]. unfold from_ends in *. simpl. f_equal; [|exact IH].
  unfold from_end. destruct (i <? 0)%Z eqn:E; [lia|reflexivity].
Qed.

Lemma pidx_KI idx : @pidx T (map KI idx) = map (fun i => PInt i) idx.
Proof. unfold pidx. rewrite map_map. reflexivity. Qed.
Lemma pidx_app a b : @pidx T (a ++ b) = pidx a ++ pidx b.
Proof. apply map_app. Qed.

Lemma travS_name s e en md rest ci p st : NoDup (map e_name (s_entries s)) -> In e (s_entries s) ->
  travS zero s en md (PStr (e_name e) :: rest) ci p st =
  mwrap (travD zero en (info e) (subT e) (e_dims e) md rest (ci ++ [KS (e_name e)]) p) st.
Proof.
  intros Hnd He. rewrite travS_eq. cbn [travS_body]. apply mwrap_eq. unfold look. rewrite (sdictT_get s e Hnd He).
  rewrite mbind_ret. now rewrite travE_eq.
Qed.

Lemma travS_name_ints s e idx en md rest ci p st : NoDup (map e_name (s_entries s)) -> In e (s_entries s) ->
  length idx = length (e_dims e) ->
  travS zero s en md (PStr (e_name e) :: map (fun i => PInt i) idx ++ rest) ci p st =
  mwrap (endD en (info e) (subT e) md rest (ci ++ KS (e_name e) :: map KI (from_ends (e_dims e) idx)) p) st.
Proof.
  intros Hnd He Hl. rewrite travS_name by assumption.
  transitivity (mwrap (mwrap (endD en (info e) (subT e) md rest (ci ++ KS (e_name e) :: map KI (from_ends (e_dims e) idx)) p)) st);
    [|apply mwrap_mwrap].
  apply mwrap_eq. rewrite travD_ints by exact Hl. now rewrite <- app_assoc.
Qed.

Lemma Addr_starts s raw ci e : Addr s raw ci e -> starts_name raw /\ starts_name ci.
Proof. destruct 1; split; eexists; eexists; reflexivity. Qed.
Lemma At_starts s ci e : At s ci e -> starts_name ci.
Proof. destruct 1; eexists; eexists; reflexivity. Qed.

Lemma endD_sub en e s' md rest ci p : e_struct e = Some s' -> rest <> [] ->
  endD en (info e) (subT e) md rest ci p = travS zero s' en md rest ci p.
Proof. intros E Hr. unfold endD, subT. rewrite E. destruct rest; [contradiction|reflexivity]. Qed.

Lemma pidx_nonempty ci rest : starts_name ci -> @pidx T ci ++ rest <> [].
Proof. intros (n & r & ->). discriminate. Qed.

Theorem travS_addr s raw ci e : Addr s raw ci e -> Wf s -> forall en md rest ci0 p st,
  travS zero s en md (pidx raw ++ rest) ci0 p st =
  mwrap (endD en (info e) (subT e) md rest (ci0 ++ ci) p) st.
Proof.
  induction 1 as [s e idx He Hl|s e idx s' raw ci e' He Es Hl Ha IH]; intros Hw en md rest ci0 p st.
  - cbn [pidx map pck app]. change (map pck (map KI idx)) with (@pidx T (map KI idx)). rewrite pidx_KI.
    now rewrite travS_name_ints by (auto using Wf_NoDup).
  - cbn [pidx map pck app]. change (map pck (map KI idx ++ raw)) with (@pidx T (map KI idx ++ raw)).
    rewrite pidx_app, pidx_KI, <- app_assoc.
    rewrite travS_name_ints by (auto using Wf_NoDup).
    rewrite (endD_sub en e s') by (auto; apply pidx_nonempty; exact (proj1 (Addr_starts _ _ _ _ Ha))).
    transitivity (mwrap (mwrap (endD en (info e') (subT e') md rest
        (ci0 ++ KS (e_name e) :: map KI (from_ends (e_dims e) idx) ++ ci) p)) st); [|apply mwrap_mwrap].
    apply mwrap_eq. rewrite IH by (eapply Wf_sub; eauto). rewrite <- !app_assoc. reflexivity.
Qed.

Lemma At_Addr s ci e : At s ci e -> Addr s ci ci e.
Proof.
  induction 1 as [s e idx He Hd|s e idx s' ci e' He Es Hd Ha IH].
  - rewrite <- (from_ends_in _ _ Hd) at 2. apply Addr_here; auto. eapply Forall2_len; eauto.
  - rewrite <- (from_ends_in _ _ Hd) at 2. eapply Addr_sub; eauto. eapply Forall2_len; eauto.
Qed.

Theorem travS_at s ci e : At s ci e -> Wf s -> forall en md rest ci0 p st,
  travS zero s en md (pidx ci ++ rest) ci0 p st =
  mwrap (endD en (info e) (subT e) md rest (ci0 ++ ci) p) st.
Proof. intros Ha. apply travS_addr. now apply At_Addr. Qed.

(** ** Keys of the index map *)
Lemma Leaf_At s ci e : Leaf s ci e -> At s ci e /\ e_struct e = None.
Proof.
  induction 1 as [s e idx He Es Hd|s e idx s' ci e' He Es Hd Hl IH].
  - split; [now apply At_here|exact Es].
  - split; [eapply At_sub; eauto; apply IH|apply IH].
Qed.
Lemma At_Leaf s ci e : At s ci e -> e_struct e = None -> Leaf s ci e.
Proof.
  induction 1 as [s e idx He Hd|s e idx s' ci e' He Es Hd Hl IH]; intros E.
  - now apply Leaf_prim.
  - eapply Leaf_sub; eauto.
Qed.
Lemma Block_At s ci s' : Block s ci s' -> exists e, At s ci e /\ e_struct e = Some s'.
Proof.
  induction 1 as [s e idx s' He Es Hd|s e idx s' p s'' He Es Hd Hb (e' & Ha & Ee)].
  - exists e. split; [now apply At_here|exact Es].
  - exists e'. split; [eapply At_sub; eauto|exact Ee].
Qed.
Lemma At_Block s ci e s' : At s ci e -> e_struct e = Some s' -> Block s ci s'.
Proof.
  induction 1 as [s e idx He Hd|s e idx s1 ci e' He Es Hd Hl IH]; intros E.
  - now apply Block_here.
  - eapply Block_sub; eauto.
Qed.

Lemma in_split_leaf s ci e : Wf s -> Leaf s ci e -> exists l1 l2, leaves s = l1 ++ ci :: l2.
Proof. intros Hw Hl. apply in_split. apply in_leaves; eauto. Qed.

Lemma map_ok s c ci m : Wf s -> casadi_structure s = Ok c -> cmap_get ci (cs_map c) = Some m ->
  (exists e, At s ci e) /\ DmOk m /\ NoDup (dm_nz m) /\ Forall (fun k => k < cs_size c) (dm_nz m) /\
  exists start, dm_nz m = seq start (sp_nnz (dm_sp m)).
Proof.
  intros Hw Hc Hm.
  assert (Hsz : cs_size c = tot s (leaves s)).
  { destruct (casadi_structure_ok s Hw) as (c' & Hc' & _ & Hs & _). congruence. }
  destruct (map_keys s c ci m Hw Hc Hm) as [(e & Hl)|(s' & Hb & Hne)].
  - destruct (in_split_leaf s ci e Hw Hl) as (l1 & l2 & Hs).
    rewrite (map_leaf s c l1 ci l2 Hw Hc Hs) in Hm. injection Hm as <-. cbn [dm_nz dm_sp].
    split; [exists e; apply Leaf_At; exact Hl|]. split; [|split; [apply seq_NoDup|]].
    + split; [simpl; rewrite (leaf_sp_e s ci e Hw Hl); eapply Leaf_SpOk; eauto|]. simpl. now rewrite seq_length.
    + split; [|eauto]. apply Forall_forall. intros k Hk. apply in_seq in Hk. rewrite Hsz, Hs. unfold tot. rewrite map_app, list_sum_app.
      unfold tot in Hk. change (list_sum (map (fun i => sp_nnz (leaf_sp s i)) (ci :: l2))) with
        (sp_nnz (leaf_sp s ci) + list_sum (map (fun i => sp_nnz (leaf_sp s i)) l2)). lia.
  - destruct (Block_segment s ci s' Hw Hb) as (l1 & l2 & Hs).
    rewrite (map_block s c ci s' l1 l2 Hw Hc Hb Hne Hs) in Hm. injection Hm as <-. cbn [dm_col dm_nz dm_sp].
    split; [destruct (Block_At _ _ _ Hb) as (e & H & _); eauto|]. 
    assert (El : sp_nnz (sp_dense (length (seq (tot s l1) (tot s' (leaves s')))) 1) = tot s' (leaves s')).
    { unfold sp_nnz. simpl sp_pat. rewrite all_pos_length, seq_length. lia. }
    split; [|split; [apply seq_NoDup|]].
    + split; [apply SpOk_dense|]. cbn [dm_nz dm_col dm_sp]. rewrite El. now rewrite seq_length.
    + split; [|exists (tot s l1); now rewrite El].
      apply Forall_forall. intros k Hk. apply in_seq in Hk. rewrite Hsz, Hs. unfold tot in *. rewrite !map_app, !list_sum_app.
      pose proof (tot_block s ci s' Hw Hb) as Ht. unfold tot in Ht. rewrite Ht. lia.
Qed.

Lemma map_get_leaf s c ci e : Wf s -> casadi_structure s = Ok c -> Leaf s ci e ->
  exists m, cmap_get ci (cs_map c) = Some m /\ dm_sp m = e_sp e.
Proof.
  intros Hw Hc Hl. destruct (in_split_leaf s ci e Hw Hl) as (l1 & l2 & Hs).
  eexists. split; [exact (map_leaf s c l1 ci l2 Hw Hc Hs)|]. simpl. now apply leaf_sp_e.
Qed.

Lemma map_None s c ci : Wf s -> casadi_structure s = Ok c -> ~ (exists e, At s ci e) -> cmap_get ci (cs_map c) = None.
Proof.
  intros Hw Hc Hn. destruct (cmap_get ci (cs_map c)) as [m|] eqn:E; [|reflexivity].
  exfalso. apply Hn. eapply map_ok; eauto.
Qed.

Lemma At_fun s ci e e' : Wf s -> At s ci e -> At s ci e' -> e = e'.
Proof.
  intros Hw Ha. revert Hw e'. induction Ha as [s e idx He Hd|s e idx s' ci e1 He Es Hd Ha IH]; intros Hw e' Ha'.
  - inversion Ha' as [s0 e0 idx0 He0 Hd0 E1|s0 e0 idx0 s1 ci1 e1 He0 Es0 Hd0 Ha1 E1]; subst.
    + eapply name_inj; eauto. now apply Wf_NoDup.
    + exfalso. pose proof (name_inj _ _ _ (Wf_NoDup _ Hw) He0 He H) as ->.
      destruct (At_starts _ _ _ Ha1) as (n & r & ->).
      symmetry in H0. exact (KS_not_in_KI _ _ _ _ H0).
  - inversion Ha' as [s0 e0 idx0 He0 Hd0 E1|s0 e0 idx0 s1 ci1 e2 He0 Es0 Hd0 Ha1 E1]; subst.
    + exfalso. destruct (At_starts _ _ _ Ha) as (n & r & ->). exact (KS_not_in_KI _ _ _ _ H0).
    + pose proof (name_inj _ _ _ (Wf_NoDup _ Hw) He0 He H) as ->.
      assert (length idx0 = length idx) by (rewrite (Forall2_len _ _ _ Hd0), (Forall2_len _ _ _ Hd); reflexivity).
      destruct (map_KI_app_inv _ _ _ _ H0 H1) as [-> ->]. rewrite Es in Es0. injection Es0 as <-.
      apply IH; auto. eapply Wf_sub; eauto.
Qed.

(** ** Reading and writing one index *)
Definition with_master (st : pstate) (v : list T) : pstate := PState v (ps_mirror st) (ps_storage st).

Lemma getitem_at s c st ci e m : Obj s c st -> At s ci e -> e_symm e = false -> cmap_get ci (cs_map c) = Some m ->
  getitem zero s (num_env c) (pidx ci) st = Ok (RMat (vals zero (ps_master st) m)).
Proof.
  intros [Hw Hc Hlen] Ha Hs Hm. unfold getitem. rewrite <- (app_nil_r (pidx ci)), (travS_at s ci e Ha Hw).
  destruct (map_ok s c ci m Hw Hc Hm) as (_ & [Hsp _] & _ & Hb & _).
  simpl. unfold mwrap, getter. simpl. rewrite Hm. simpl. rewrite Hs. unfold mbind. simpl. unfold correct_vector_indexing.
  rewrite (cvi_ok zero); auto. unfold inb. now rewrite Hlen.
Qed.

(** Payload matrices are proper. *)
Definition pay_ok (p : pay) : Prop := match p with PayMat m => DmOk m | _ => True end.
Lemma dm_col_ok (l : list T) : DmOk (dm_col l).
Proof. split; [apply SpOk_dense|]. unfold sp_nnz. simpl. rewrite all_pos_length. lia. Qed.
Lemma to_mtype_ok p m : pay_ok p -> to_mtype p = Ok m -> DmOk m.
Proof.
  intros Hp. destruct p; simpl; try discriminate.
  - intros [= <-]. split; [apply SpOk_dense|reflexivity].
  - now intros [= <-].
  - destruct (pay_nums l); [intros [= <-]; apply dm_col_ok|]. destruct (pay_rows l); [|discriminate].
    unfold dm_of_rows. destruct (forallb _ _); [|discriminate]. intros [= <-]. apply dm_build_ok.
Qed.

Lemma setitem_at s c st ci e m v M : Obj s c st -> At s ci e -> e_symm e = false -> cmap_get ci (cs_map c) = Some m ->
  pay_ok v -> to_mtype v = Ok M ->
  (fits M (dm_sp m) /\ setitem zero s (num_env c) (pidx ci) v st =
     (with_master st (vec_set_list (ps_master st) (dm_nz m) (map (fit zero M (dm_sp m)) (sp_pat (dm_sp m)))), Ok RNone)) \/
  (~ fits M (dm_sp m) /\ setitem zero s (num_env c) (pidx ci) v st = (st, Err EException)).
Proof.
  intros [Hw Hc Hlen] Ha Hs Hm Hv HM. unfold setitem. rewrite <- (app_nil_r (pidx ci)), (travS_at s ci e Ha Hw).
  destruct (map_ok s c ci m Hw Hc Hm) as (_ & Hok & _ & Hb & _).
  assert (Hi : inb (ps_master st) m) by (unfold inb; now rewrite Hlen).
  simpl. unfold mwrap, setter, mbind, mlift. rewrite HM. simpl. rewrite Hm. simpl. rewrite Hs.
  destruct (vec_set_ok zero (ps_master st) m M Hok (to_mtype_ok v M Hv HM) Hi) as [[Hf ->]|[Hf ->]]; [left|right]; auto.
Qed.

Lemma setitem_at_err s c st ci e m v x : Obj s c st -> At s ci e -> cmap_get ci (cs_map c) = Some m ->
  to_mtype v = Err x -> setitem zero s (num_env c) (pidx ci) v st = (st, Err EException).
Proof.
  intros [Hw Hc Hlen] Ha Hm HM. unfold setitem. rewrite <- (app_nil_r (pidx ci)), (travS_at s ci e Ha Hw).
  simpl. unfold mwrap, setter, mbind, mlift. rewrite HM. reflexivity.
Qed.

(** An index that is not a key of the map raises and changes nothing. *)
Lemma dispatch_None en md p ci ex ei st : cmap_get ci (en_map en) = None -> md <> MInject ->
  mwrap (dispatch zero en md p ci ex ei) st = (st, Err EException).
Proof.
  intros H Hmd. unfold mwrap. destruct md; simpl.
  - unfold getter. now rewrite H.
  - unfold setter, mbind, mlift. destruct (to_mtype p); [|reflexivity]. now rewrite H.
  - unfold flatget, imget. now rewrite H.
  - unfold imget. now rewrite H.
  - congruence.
Qed.

(** ** Purity of reads *)
Definition pure_mode (md : mode) : bool := match md with MGet | MFlat | MIM => true | _ => false end.
Definition pure {A} (m : @M T A) : Prop := forall st, fst (m st) = st.

Lemma pure_ret {A} (a : A) : pure (mret a).
Proof. intros st. reflexivity. Qed.
Lemma pure_err {A} e : pure (@merr T A e).
Proof. intros st. reflexivity. Qed.
Lemma pure_lift {A} (r : res A) : pure (mlift r).
Proof. intros st. reflexivity. Qed.
Lemma pure_bind {A B} (m : @M T A) (k : A -> @M T B) : pure m -> (forall a, pure (k a)) -> pure (mbind m k).
Proof.
  intros Hm Hk st. unfold mbind. specialize (Hm st). destruct (m st) as [s [a|e]]; simpl in *; subst; [apply Hk|reflexivity].
Qed.
Lemma pure_bind_lift {A B} (r : res A) (k : A -> @M T B) : (forall a, r = Ok a -> pure (k a)) -> pure (mbind (mlift r) k).
Proof. intros H st. unfold mbind, mlift. destruct r; [now apply H|reflexivity]. Qed.
Lemma pure_wrap {A} (m : @M T A) : pure m -> pure (mwrap m).
Proof. intros Hm st. rewrite mwrap_fst. apply Hm. Qed.
Lemma pure_mmapM {A B} (f : A -> @M T B) l : (forall a, In a l -> pure (f a)) -> pure (mmapM f l).
Proof.
  induction l as [|a l IH]; intros H; [apply pure_ret|]. simpl. apply pure_bind; [apply H; now left|].
  intros b. apply pure_bind; [apply IH; intros; apply H; now right|]. intros bs. apply pure_ret.
Qed.

Lemma pure_dispatch en md p ci ex ei : pure_mode md = true -> pure (dispatch zero en md p ci ex ei).
Proof.
  intros Hm. destruct md; try discriminate; simpl.
  - unfold getter. destruct (cmap_get _ _); [|apply pure_err].
    destruct (match extra ex with [] => _ | _ => _ end).
    + destruct (is_symm ei); [apply pure_lift|apply pure_ret].
    + apply pure_bind; [apply pure_lift|]. intros i. destruct i; try apply pure_err.
      apply pure_bind; [intros st; reflexivity|]. intros v. destruct (is_symm ei); apply pure_lift.
  - apply pure_lift.
  - apply pure_lift.
Qed.

Lemma inner_pure md : pure_mode md = true -> inner md = Ok md.
Proof. destruct md; simpl; congruence. Qed.
Lemma outer_pure en md p r : pure_mode md = true -> outer zero en md p r = mret r.
Proof. destruct md; simpl; congruence. Qed.

Definition pclos (f : clos) : Prop := forall en md pi ci p, pure_mode md = true -> pure (f en md pi ci p).

Lemma pure_travD en ei sub : (forall f, sub = Some f -> pclos f) -> forall dims md pi ci p, pure_mode md = true ->
  pure (travD zero en ei sub dims md pi ci p).
Proof.
  intros Hsub. induction dims as [|d ds IH]; intros md pi ci p Hm.
  - simpl. apply pure_wrap. destruct pi; [now apply pure_dispatch|]. destruct sub as [f|]; [apply Hsub; auto|now apply pure_dispatch].
  - cbn [travD]. 
    assert (Hmany : forall ci p l rest, pure (rs <- mmapM (fun k => match k with
                     | KS _ => merr EType
                     | KI i => p' <- mlift (payloadUnpack p k) ;;
                               travD zero en ei sub ds md rest (ci ++ [KI (canonical i d)]) p'
                     end) l ;; mret (RList rs))).
    { intros ci' p' l rest. apply pure_bind; [|intros; apply pure_ret]. apply pure_mmapM. intros [|] _; [apply pure_err|].
      apply pure_bind; [apply pure_lift|]. intros. now apply IH. }
    revert ci p. induction pi as [|x rest IHp]; intros ci p; apply pure_wrap.
    + apply pure_bind; [apply pure_lift|]. intros. apply Hmany.
    + destruct x; try apply pure_err; try apply Hmany.
      * now apply IH.
      * apply pure_bind; [apply pure_lift|]. intros. apply Hmany.
      * apply pure_bind_lift. intros md' E. rewrite (inner_pure md Hm) in E. injection E as <-.
        apply pure_bind; [apply IHp|]. intros r. apply pure_bind; [apply pure_lift|]. intros r'.
        rewrite outer_pure by exact Hm. apply pure_ret.
Qed.

Lemma in_dict_set {V} k (v : V) d x : In x (dict_set k v d) -> x = (k, v) \/ In x d \/ (fst x = k /\ snd x = v).
Proof.
  induction d as [|[k' v'] d IH]; simpl; [intros [<-|[]]; auto|].
  destruct (String.eqb k k') eqn:E; simpl.
  - apply String.eqb_eq in E. subst. intros [<-|H]; auto.
  - intros [<-|H]; auto. destruct (IH H) as [|[|]]; auto.
Qed.
Lemma in_pydict {V} (l : list (string * V)) x : In x (pydict l) -> In x l.
Proof.
  unfold pydict. assert (G : forall l d, In x (fold_left (fun d kv => dict_set (fst kv) (snd kv) d) l d) -> In x l \/ In x d).
  { clear l. induction l as [|[k v] l IH]; intros d H; [auto|]. simpl in H. destruct (IH _ H) as [H1|H1]; [left; now right|].
    apply in_dict_set in H1 as [->|[H1|[H1 H2]]]; simpl; auto. left. left. destruct x; simpl in *; congruence. }
  intros H. destruct (G l [] H) as [H1|[]]. exact H1.
Qed.

Lemma pure_mdict (m : @M T (list (string * rval))) : pure m -> pure (mdict m).
Proof. intros H. apply pure_bind; [exact H|]. intros; apply pure_ret. Qed.

Lemma dict_get_In {V} k (v : V) d : dict_get k d = Some v -> In (k, v) d.
Proof.
  induction d as [|[k' v'] d IH]; simpl; [discriminate|]. destruct (String.eqb k k') eqn:E; [|auto].
  apply String.eqb_eq in E. intros [= ->]. subst; auto.
Qed.

Lemma pure_look d k : pure (@look T d k).
Proof. unfold look. destruct (dict_get k d); [apply pure_ret|apply pure_err]. Qed.
Lemma pure_look_bind {B} (d : list (string * clos)) k (g : clos -> @M T B) :
  (forall f, In (k, f) d -> pure (g f)) -> pure (mbind (look d k) g).
Proof.
  intros H. unfold look. destruct (dict_get k d) as [f|] eqn:E.
  - intros st. rewrite mbind_ret. apply H. now apply dict_get_In.
  - intros st. reflexivity.
Qed.

Lemma pure_travS_body d keys : (forall k f, In (k, f) d -> pclos f) -> forall en md pi ci p, pure_mode md = true ->
  pure (travS_body zero d keys en md pi ci p).
Proof.
  intros Hd en md pi ci p Hm. revert ci p. 
  assert (Hdict : forall ci p rest,
     pure (match p with
    | PayDict kv =>
        mdict (mmapM (fun x => f <- look d (fst x) ;;
                               r <- f en md rest (ci ++ [KS (fst x)]) (snd x) ;; mret (fst x, r)) kv)
    | _ =>
        mdict (mmapM (fun x => r <- snd x en md rest (ci ++ [KS (fst x)]) p ;; mret (fst x, r)) d)
    end)).
  { intros ci p rest. destruct p; apply pure_mdict, pure_mmapM; intros [k f] Hin;
      try (apply pure_bind; [now apply (Hd k f)|]; intros; apply pure_ret).
    apply pure_look_bind. intros f' Hf. apply pure_bind; [now apply (Hd _ _ Hf)|]. intros; apply pure_ret. }
  induction pi as [|x rest IH]; intros ci p; cbn [travS_body]; apply pure_wrap.
  - now apply pure_dispatch.
  - destruct x; try apply pure_err; try apply Hdict.
    + apply pure_look_bind. intros f Hf. now apply (Hd _ _ Hf).
    + apply pure_bind; [|intros; apply pure_ret]. apply pure_mmapM. intros [i k] _.
      apply pure_bind; [apply pure_lift|]. intros. apply IH.
    + apply pure_bind; [|intros; apply pure_ret]. apply pure_mmapM. intros [i k] _.
      apply pure_look_bind. intros f Hf. apply pure_bind; [apply pure_lift|]. intros. now apply (Hd _ _ Hf).
    + destruct p; apply pure_mdict, pure_mmapM; intros y _; apply pure_look_bind; intros f Hf;
        (apply pure_bind; [now apply (Hd _ _ Hf)|]); intros; apply pure_ret.
    + apply pure_bind_lift. intros md' E. rewrite (inner_pure md Hm) in E. injection E as <-.
      apply pure_bind; [apply IH|]. intros r. apply pure_bind; [apply pure_lift|]. intros r'.
      rewrite outer_pure by exact Hm. apply pure_ret.
Qed.

Theorem pure_travS s : pclos (travS zero s).
Proof.
  induction s as [es order IH] using structure_ind2. intros en md pi ci p Hm. rewrite travS_eq.
  apply pure_travS_body; [|exact Hm]. intros k f Hin. unfold sdictT in Hin. apply in_pydict in Hin. simpl in Hin.
  apply in_map_iff in Hin as (e & [= <- <-] & He). intros en' md' pi' ci' p' Hm'. rewrite travE_eq. apply pure_travD; [|exact Hm'].
  unfold subT. intros f. destruct (e_struct e) as [s'|] eqn:Es; [|discriminate]. intros [= <-]. eapply IH; eauto.
Qed.
End P.
