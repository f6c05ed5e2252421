(** Indices that start with a list of names (C16, C88): exactly what is read and written. *)
From Verif Require Import PyBase IndexModel DMModel StructModel StructSpec PowerModel PowerSpec
  IndexProofs StructProofs LayoutProofs LayoutThms LayoutExamples DMProofs PowerProofs PowerThms SliceProofs PowerThms2 PowerThms3 PowerThms4 PowerThms5 SliceWriteThms.

Section P.
Context {T : Type} (zero : T).
Notation rval := (rval T).
Notation pel := (pel T).
Notation pay := (pay T).
Notation env := (env T).
Notation pstate := (pstate T).

(** The index matrix of a name, as [s.i] shows it. *)
Lemma name_map s c n : Wf s -> casadi_structure s = Ok c ->
  match cmap_get [KS n] (cs_map c) with
  | Some m => (exists e, In e (s_entries s) /\ e_name e = n /\ e_dims e = []) /\ i_get zero s [PStr n] = Ok (@RIdx T m)
  | None => forall m, i_get zero s [PStr n] <> Ok (@RIdx T m)
  end.
Proof.
  intros Hw Hc. pose proof (Wf_NoDup _ Hw) as Hnd. destruct (cmap_get [KS n] (cs_map c)) as [m|] eqn:Em.
  - assert (He : exists e, In e (s_entries s) /\ e_name e = n /\ e_dims e = []).
    { destruct (map_keys' s c _ _ Hw Hc Em) as [(e & Hl)|(s' & Hb & _)].
      - inversion Hl as [s0 e0 idx He Es Hd E1|s0 e0 idx s1 ci1 e2 He Es Hd Hl1 E1]; subst.
        + destruct idx; [|discriminate]. inversion Hd. eauto.
        + destruct Hl1; destruct idx; discriminate.
      - inversion Hb as [s0 e0 idx s1 He Es Hd E1|s0 e0 idx s1 p s2 He Es Hd Hb1 E1]; subst.
        + destruct idx; [|discriminate]. inversion Hd. eauto.
        + destruct Hb1; destruct idx; discriminate. }
    split; [exact He|]. destruct He as (e & He & <- & Hd).
    assert (Ha : At s [KS (e_name e)] e) by (apply (At_here s e []); [exact He|rewrite Hd; constructor]).
    change [PStr (e_name e)] with (@pidx T [KS (e_name e)]). rewrite (i_get_at zero s c _ e Hw Hc Ha), Em. reflexivity.
  - intros m Hi. destruct (in_dec string_dec n (map e_name (s_entries s))) as [Hn|Hn].
    + apply in_map_iff in Hn as (e & <- & He). destruct (e_dims e) as [|d ds] eqn:Hd.
      * assert (Ha : At s [KS (e_name e)] e) by (apply (At_here s e []); [exact He|rewrite Hd; constructor]).
        change [PStr (e_name e)] with (@pidx T [KS (e_name e)]) in Hi. rewrite (i_get_at zero s c _ e Hw Hc Ha), Em in Hi. discriminate.
      * unfold i_get, index_getter in Hi. rewrite Hc in Hi. cbn [rbind] in Hi. rewrite (travS_name zero s e) in Hi by assumption.
        rewrite Hd in Hi. cbn [travD] in Hi. rewrite !mwrap_snd in Hi. unfold mbind at 1, mlift at 1 in Hi.
        destruct (slice_range slice_all d) as [l|x]; [|discriminate]. unfold mbind at 1 in Hi.
        match type of Hi with context [mmapM ?g ?l ?st] => destruct (mmapM g l st) as [st1 [rs|x]] end; discriminate.
    + unfold i_get, index_getter in Hi. rewrite Hc in Hi. cbn [rbind] in Hi.
      rewrite (unknown_name zero) in Hi by assumption. discriminate.
Qed.

(** ** Reads *)
(** What a list of names reads for one name: the elements listed by [s.i[n]], as they are stored. *)
Definition OwnBlock (s : structure) (st : pstate) (n : string) (M : dm T) : Prop :=
  exists m, i_get zero s [PStr n] = Ok (@RIdx T m) /\ DmOk M /\ dm_sp M = dm_sp m /\
    forall p, dm_at M p = option_map (fun k => nth k (ps_master st) zero) (dm_at m p).

Lemma raw_read s c (st : pstate) n p : Obj s c st ->
  snd (mwrap (dispatch zero (num_env c) MGet p [KS n] None None) st) =
  match cmap_get [KS n] (cs_map c) with Some m => Ok (RMat (vals zero (ps_master st) m)) | None => Err EException end.
Proof.
  intros [Hw Hc Hlen]. rewrite mwrap_snd. simpl. unfold getter. simpl. destruct (cmap_get [KS n] (cs_map c)) as [m|] eqn:Em; [|reflexivity].
  destruct (map_ok s c _ m Hw Hc Em) as (_ & [Hsp _] & _ & Hb & _). unfold mbind, mlift, get_master. simpl. unfold correct_vector_indexing.
  rewrite (cvi_ok zero); auto. unfold inb. now rewrite Hlen.
Qed.

Lemma names_raw s c (st : pstate) names : Obj s c st ->
  getitem zero s (num_env c) [PLst (map KS names)] st =
  wrapE (rmap (@RList T) (rmapM (fun n => match cmap_get [KS n] (cs_map c) with Some m => Ok (RMat (vals zero (ps_master st) m)) | None => Err EException end) names)).
Proof.
  intros Ho. unfold getitem. rewrite travS_eq. cbn [travS_body]. rewrite mwrap_snd.
  unfold mbind at 1. rewrite mmapM_pure.
  - match goal with |- context [rmapM ?g0 (enum _)] => set (g := g0) end.
    match goal with |- _ = wrapE (rmap _ (rmapM ?g0 _)) => set (h := g0) end.
    assert (E : rmapM g (enum (map KS names)) = rmapM h names).
    { unfold enum. rewrite map_length. generalize 0 at 1. induction names as [|k l IH]; intros n; [reflexivity|].
      cbn [length seq map List.combine rmapM].
      assert (Ek : g (Z.of_nat n, KS k) = h k).
      { unfold g, h. cbn [fst snd payloadUnpack]. unfold mbind, mlift. cbn [travS_body app]. now apply (raw_read s). }
      rewrite Ek, IH. reflexivity. }
    rewrite E. destruct (rmapM h names); reflexivity.
  - intros [i k] _. apply pure_bind; [apply pure_lift|]. intros p. cbn [travS_body]. apply pure_wrap. now apply pure_dispatch.
Qed.

Theorem names_read_exact s c (st : pstate) names : Obj s c st ->
  ((exists R, getitem zero s (num_env c) [PLst (map KS names)] st = Ok R) <->
     Forall (fun n => exists m, i_get zero s [PStr n] = Ok (@RIdx T m)) names) /\
  ((exists Ms, getitem zero s (num_env c) [PLst (map KS names)] st = Ok (RList (map (@RMat T) Ms)) /\ Forall2 (OwnBlock s st) names Ms) \/
   getitem zero s (num_env c) [PLst (map KS names)] st = Err EException).
Proof.
  intros Ho. rewrite (names_raw s c st names Ho). pose proof (ob_wf _ _ _ Ho) as Hw. pose proof (ob_built _ _ _ Ho) as Hc.
  match goal with |- context [rmapM ?g0 _] => set (h := g0) end.
  assert (G : (exists Ms, rmapM h names = Ok (map (@RMat T) Ms) /\ Forall2 (OwnBlock s st) names Ms /\ Forall (fun n => exists m, i_get zero s [PStr n] = Ok (@RIdx T m)) names) \/
     (exists x, rmapM h names = Err x) /\ ~ Forall (fun n => exists m, i_get zero s [PStr n] = Ok (@RIdx T m)) names).
  { induction names as [|n l IH]; [left; exists []; repeat split; constructor|]. cbn [rmapM]. pose proof (name_map s c n Hw Hc) as Hn.
    unfold h at 1. unfold h at 2. destruct (cmap_get [KS n] (cs_map c)) as [m|] eqn:Em.
    - destruct Hn as [_ Hi]. cbn [rbind]. destruct IH as [(Ms & -> & H1 & H2)|((x & ->) & H)].
      + left. exists (vals zero (ps_master st) m :: Ms). split; [reflexivity|]. split; [constructor; [|exact H1]|constructor; eauto].
        exists m. split; [exact Hi|]. split; [apply DmOk_map; destruct (map_ok s c _ m Hw Hc Em) as (_ & Hok & _); exact Hok|]. split; [reflexivity|]. intros p. unfold vals. now rewrite dm_at_map.
      + right. split; [exists x; reflexivity|]. intros HF. inversion HF; auto.
    - right. split; [eexists; reflexivity|]. intros HF. inversion HF as [|? ? (m & Hm) _]; subst. exact (Hn _ Hm). }
  destruct G as [(Ms & -> & H1 & H2)|((x & ->) & H)]; cbn [rmap rbind wrapE].
  - split; [split; [auto|eauto]|left; eauto].
  - split; [split; [intros (R & HR); discriminate|contradiction]|auto].
Qed.

(** For an entry that is not symmetric that is what the name alone reads; for a symmetric one it is the
    upper triangle of it, the lower one being left out. *)
Theorem own_block_plain s c (st : pstate) e M : Obj s c st -> In e (s_entries s) -> e_symm e = false ->
  OwnBlock s st (e_name e) M -> getitem zero s (num_env c) [PStr (e_name e)] st = Ok (RMat M).
Proof.
  intros Ho He Hs (m & Hi & HM & E & Hv). pose proof (ob_wf _ _ _ Ho) as Hw. pose proof (ob_built _ _ _ Ho) as Hc.
  pose proof (name_map s c (e_name e) Hw Hc) as Hn. destruct (cmap_get [KS (e_name e)] (cs_map c)) as [m0|] eqn:Em; [|exfalso; exact (Hn _ Hi)].
  destruct Hn as [(e' & He' & En & Hd) Hi']. rewrite Hi in Hi'. injection Hi' as <-.
  pose proof (name_inj _ _ _ (Wf_NoDup _ Hw) He' He En) as ->.
  assert (Ha : At s [KS (e_name e)] e) by (apply (At_here s e []); [exact He|rewrite Hd; constructor]).
  change [PStr (e_name e)] with (@pidx T [KS (e_name e)]). rewrite (getitem_at zero s c st _ e m Ho Ha Hs Em). do 2 f_equal.
  destruct (map_ok s c _ m Hw Hc Em) as (_ & Hok & _).
  apply dm_ext; [apply DmOk_map, Hok|exact HM| | |].
  - unfold dm_nr. now rewrite E.
  - unfold dm_nc. now rewrite E.
  - intros p. rewrite Hv. unfold vals. now rewrite dm_at_map.
Qed.
Theorem own_block_symm s c (st : pstate) e n orig M : Obj s c st -> In e (s_entries s) -> SymmEntry e n orig ->
  OwnBlock s st (e_name e) M ->
  exists R, getitem zero s (num_env c) [PStr (e_name e)] st = Ok (RMat R) /\
    (forall i j, i <= j -> dm_at M (i, j) = dm_at R (i, j) /\ dm_at M (i, j) = dm_at R (j, i)) /\
    (forall i j, j < i -> dm_at M (i, j) = None).
Proof.
  intros Ho He Hs (m & Hi & _ & E & Hv). pose proof (ob_wf _ _ _ Ho) as Hw. pose proof (ob_built _ _ _ Ho) as Hc.
  pose proof (name_map s c (e_name e) Hw Hc) as Hn. destruct (cmap_get [KS (e_name e)] (cs_map c)) as [m0|] eqn:Em; [|exfalso; exact (Hn _ Hi)].
  destruct Hn as [(e' & He' & En & Hd) Hi']. rewrite Hi in Hi'. injection Hi' as <-.
  pose proof (name_inj _ _ _ (Wf_NoDup _ Hw) He' He En) as ->.
  assert (Ha : At s [KS (e_name e)] e) by (apply (At_here s e []); [exact He|rewrite Hd; constructor]).
  destruct (sy_read zero s c [KS (e_name e)] e n orig m Hw Hc Ha Hs Em st Ho) as (R & H1 & H2 & H3 & H4).
  exists R. split; [exact H1|].
  assert (Hm : forall i j, i <= j -> dm_at M (i, j) = dm_at R (i, j)).
  { intros i j Hij. rewrite Hv, H4. unfold mirror. cbn [fst snd]. apply Nat.leb_le in Hij. rewrite Hij. unfold vals. now rewrite dm_at_map. }
  split.
  - intros i j Hij. split; [auto|]. rewrite Hm by exact Hij. rewrite !H4. apply mirror_sym.
  - intros i j Hij. rewrite Hv. destruct (dm_at m (i, j)) as [k|] eqn:Ek; [|reflexivity]. apply dm_at_In in Ek.
    pose proof (sy_up s c [KS (e_name e)] e n orig m Hw Hc Ha Hs Em) as Hu. rewrite Forall_forall in Hu. specialize (Hu _ Ek). cbn in Hu. lia.
Qed.

(** ** Writes *)
Fixpoint name_writes (p : pay) (k : nat) (names : list string) : list (list pel * option pay) :=
  match names with [] => [] | n :: l => ([PStr n], item p k) :: name_writes p (S k) l end.

Lemma unpack_nat (p : pay) k : match item p k with Some q => payloadUnpack p (KI (Z.of_nat k)) = Ok q | None => exists x, payloadUnpack p (KI (Z.of_nat k)) = Err x end.
Proof.
  pose proof (unpack_at p (Z.of_nat k)) as H. destruct p; try exact H. cbn [item item_at] in *.
  destruct (Z.ltb_spec (Z.of_nat k) 0); [lia|]. now rewrite Nat2Z.id in H.
Qed.

Lemma raw_write s c (st : pstate) n q e : Wf s -> casadi_structure s = Ok c -> In e (s_entries s) -> e_name e = n -> e_dims e = [] -> e_symm e = false ->
  mwrap (dispatch zero (num_env c) MSet q [KS n] None None) st = setitem zero s (num_env c) [PStr n] q st.
Proof.
  intros Hw Hc He <- Hd Hs. unfold setitem. rewrite (travS_name zero s e) by auto using Wf_NoDup. rewrite Hd. cbn [travD]. cbn [app].
  rewrite mwrap_mwrap. apply mwrap_eq. cbn [dispatch]. unfold setter, mbind, mlift. destruct (to_mtype q); [|reflexivity].
  destruct (cmap_get _ _); [|reflexivity]. cbn [extra performExtraIndex is_symm info ei_symm]. rewrite Hs. reflexivity.
Qed.

Theorem names_write s c (st : pstate) pre post p :
  Wf s -> casadi_structure s = Ok c ->
  Forall (fun n => (exists m, i_get zero s [PStr n] = Ok (@RIdx T m)) /\ exists e, In e (s_entries s) /\ e_name e = n /\ e_symm e = false) pre ->
  (post = [] \/ exists n l, post = n :: l /\ forall m, i_get zero s [PStr n] <> Ok (@RIdx T m)) ->
  done (setitem zero s (num_env c) [PLst (map KS (pre ++ post))] p st) =
  let (st', b) := write_seq zero s (num_env c) (name_writes p 0 pre) st in
  (st', b && match post with [] => true | _ => false end).
Proof.
  intros Hw Hc Hpre Hpost. unfold setitem. rewrite travS_eq. cbn [travS_body].
  unfold mwrap at 1. unfold mbind at 1.
  match goal with |- context [mmapM ?g _ _] => set (step := g) end.
  unfold enum. rewrite map_length.
  assert (G : forall l k st, Forall (fun n => (exists m, i_get zero s [PStr n] = Ok (@RIdx T m)) /\ exists e, In e (s_entries s) /\ e_name e = n /\ e_symm e = false) l ->
    done (match mmapM step (List.combine (map Z.of_nat (seq k (length (l ++ post)))) (map KS (l ++ post))) st with
          | (st1, Ok rs) => (st1, Ok (RList rs)) | (st1, Err x) => (st1, Err EException) end) =
    let (st', b) := write_seq zero s (num_env c) (name_writes p k l) st in (st', b && match post with [] => true | _ => false end)).
  { clear st Hpre. induction l as [|n l IH]; intros k st Hl.
    - cbn [app name_writes write_seq]. destruct Hpost as [->|(n & l & -> & Hn)]; [reflexivity|].
      cbn [length seq map List.combine mmapM]. unfold mbind at 1. unfold step at 1. unfold mbind at 1, mlift at 1. cbn [fst snd].
      destruct (payloadUnpack p (KI (Z.of_nat k))) as [q|x]; [|reflexivity]. cbn [travS_body app].
      rewrite (dispatch_None zero); [reflexivity| |discriminate]. cbn [en_map num_env].
      pose proof (name_map s c n Hw Hc) as H. destruct (cmap_get [KS n] (cs_map c)) as [m|]; [|reflexivity]. exfalso. eapply Hn, H.
    - inversion Hl as [|? ? [(m & Hi) (e & He & En & Hs)] Hl']; subst.
      cbn [app length seq map List.combine mmapM name_writes write_seq]. unfold mbind at 1. unfold step at 1. unfold mbind at 1, mlift at 1. cbn [fst snd].
      pose proof (unpack_nat p k) as Hu. destruct (item p k) as [q|]; [|destruct Hu as (x & ->); reflexivity]. rewrite Hu. cbn [travS_body app].
      assert (Hd : e_dims e = []).
      { pose proof (name_map s c (e_name e) Hw Hc) as H. destruct (cmap_get [KS (e_name e)] (cs_map c)) as [m0|]; [|exfalso; exact (H _ Hi)].
        destruct H as [(e' & He' & En & Hd) _]. now rewrite (name_inj _ _ _ (Wf_NoDup _ Hw) He' He En) in Hd. }
      rewrite (raw_write s c st (e_name e) q e) by auto.
      destruct (setitem zero s (num_env c) [PStr (e_name e)] q st) as [st1 [r|x]]; [|reflexivity].
      specialize (IH (S k) st1 Hl'). rewrite <- IH. unfold mbind at 1.
      destruct (mmapM step _ st1) as [st2 [rs|x]]; reflexivity. }
  specialize (G pre 0 st Hpre). rewrite <- G. destruct (mmapM step _ st) as [st1 [rs|x]]; reflexivity.
Qed.

(** A symmetric entry in a list of names: whatever has the shape of the matrix is stored, its upper triangle being kept,
    and the declared sparsity is not compared with that of the right-hand side. *)
Theorem names_write_symm s c (st : pstate) e n orig p v P :
  Obj s c st -> In e (s_entries s) -> e_dims e = [] -> SymmEntry e n orig -> item p 0 = Some v -> pay_ok v -> to_mtype v = Ok P ->
  let ix := [PLst (map KS [e_name e])] in
  (~ fits P (e_sp e) -> setitem zero s (num_env c) ix p st = (st, Err EException)) /\
  (fits P (e_sp e) -> exists st' r R, setitem zero s (num_env c) ix p st = (st', Ok r) /\
     getitem zero s (num_env c) [PStr (e_name e)] st' = Ok (RMat R) /\ dm_shape R = (n, n) /\
     (forall i j, i <= j -> In (i, j) (sp_pat orig) -> dm_at R (i, j) = Some (fit zero P (e_sp e) (i, j)) /\ dm_at R (j, i) = Some (fit zero P (e_sp e) (i, j))) /\
     (forall ii, i_get zero s [PStr (e_name e)] = Ok ii -> unchanged (positions ii) st st')).
Proof.
  intros Ho He Hd Hs Hp Hv HM ix. pose proof (ob_wf _ _ _ Ho) as Hw. pose proof (ob_built _ _ _ Ho) as Hc.
  assert (Ha : At s [KS (e_name e)] e) by (apply (At_here s e []); [exact He|rewrite Hd; constructor]).
  destruct (map_get_leaf s c _ e Hw Hc (At_Leaf _ _ _ Ha (se_prim _ _ _ Hs))) as (m & Hm & Em).
  assert (Eset : setitem zero s (num_env c) ix p st =
    match vec_set zero (ps_master st) m P with Ok w => (with_master st w, Ok (RList [RNone])) | Err _ => (st, Err EException) end).
  { unfold setitem, ix. rewrite travS_eq. cbn [travS_body map]. unfold mwrap at 1, mbind at 1. unfold enum. cbn [length seq map List.combine mmapM].
    unfold mbind at 1. unfold mbind at 1, mlift at 1. cbn [fst snd]. pose proof (unpack_nat p 0) as Hu. rewrite Hp in Hu. rewrite Hu.
    cbn [travS_body app dispatch]. unfold mwrap, setter, mbind, mlift. rewrite HM. cbn [en_map num_env]. rewrite Hm. cbn.
    destruct (vec_set zero (ps_master st) m P); reflexivity. }
  destruct (sy_ok s c [KS (e_name e)] m Hw Hc Hm) as (Hok & Hnd & Hb). pose proof (sy_inb s c _ m Hw Hc Hm st Ho) as Hib.
  pose proof (to_mtype_ok v P Hv HM) as HPok. rewrite <- Em.
  destruct (vec_set_ok zero (ps_master st) m P Hok HPok Hib) as [[Hf E]|[Hf E]]; rewrite E in Eset; rewrite Eset.
  - split; [contradiction|]. intros _. set (w := vec_set_list _ _ _) in *.
    assert (Hlen : length w = length (ps_master st)) by apply vec_set_list_length.
    assert (Ho' : Obj s c (with_master st w)) by (apply (Obj_with_master s c st w Ho); exact Hlen).
    destruct (sy_read zero s c [KS (e_name e)] e n orig m Hw Hc Ha Hs Hm _ Ho') as (R & H1 & H2 & H3 & H4).
    exists (with_master st w), (RList [RNone]), R. split; [reflexivity|]. split; [exact H1|]. split; [exact H3|]. split.
    + intros i j Hij Hin. assert (Hr : dm_at R (i, j) = Some (fit zero P (dm_sp m) (i, j))).
      { rewrite H4. unfold mirror. cbn [fst snd]. pose proof Hij as Hl. apply Nat.leb_le in Hl. rewrite Hl. unfold vals. rewrite dm_at_map.
        assert (Hi : In (i, j) (sp_pat (dm_sp m))) by (apply (sy_pat s c _ e n orig m Hw Hc Ha Hs Hm); auto).
        destruct (dm_at_Some m (i, j) Hok Hi) as (k & Ek). rewrite Ek. cbn [option_map with_master ps_master]. f_equal.
        unfold w. apply (set_at zero (ps_master st) m _ (i, j) k); auto. }
      split; [exact Hr|]. rewrite <- Hr, !H4. apply mirror_sym.
    + intros ii Hii. change [PStr (e_name e)] with (@pidx T [KS (e_name e)]) in Hii. rewrite (i_get_at zero s c _ e Hw Hc Ha), Hm in Hii. injection Hii as <-.
      split; [exact Hlen|]. intros k Hk. cbn. now apply vec_set_list_other.
  - split; [reflexivity|contradiction].
Qed.

(** Anything but names after the list is looked up in the outer structure: integers and slices raise. *)
Theorem names_then_int s c (st : pstate) n names i rest v :
  let ix := PLst (map KS (n :: names)) :: PInt i :: rest in
  getitem zero s (num_env c) ix st = Err EException /\ setitem zero s (num_env c) ix v st = (st, Err EException).
Proof.
  assert (G : forall md p, travS zero s (num_env c) md (PLst (map KS (n :: names)) :: PInt i :: rest) [] p st = (st, Err EException)).
  { intros md p. rewrite travS_eq. cbn [travS_body map]. unfold mwrap at 1, mbind at 1. unfold enum. cbn [length seq map List.combine mmapM].
    unfold mbind at 1. unfold mbind at 1, mlift at 1. cbn [fst snd]. destruct (payloadUnpack p (KI (Z.of_nat 0))) as [q|x]; reflexivity. }
  cbn zeta. unfold getitem, setitem. rewrite !G. auto.
Qed.
Theorem names_then_name s c (st : pstate) n names k rest v :
  Wf s -> ~ In k (map e_name (s_entries s)) ->
  let ix := PLst (map KS (n :: names)) :: PStr k :: rest in
  getitem zero s (num_env c) ix st = Err EException /\ setitem zero s (num_env c) ix v st = (st, Err EException).
Proof.
  intros Hw Hk.
  assert (G : forall md p, travS zero s (num_env c) md (PLst (map KS (n :: names)) :: PStr k :: rest) [] p st = (st, Err EException)).
  { intros md p. rewrite travS_eq. cbn [travS_body map]. unfold mwrap at 1, mbind at 1. unfold enum. cbn [length seq map List.combine mmapM].
    unfold mbind at 1. unfold mbind at 1, mlift at 1. cbn [fst snd]. destruct (payloadUnpack p (KI (Z.of_nat 0))) as [q|x]; [|reflexivity].
    unfold mwrap at 1, mbind at 1, look at 1. rewrite sdictT_None by auto using Wf_NoDup. reflexivity. }
  cbn zeta. unfold getitem, setitem. rewrite !G. auto.
Qed.
End P.
