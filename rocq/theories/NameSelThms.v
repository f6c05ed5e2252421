(** Selecting parts of an entry by the names of the structures in its [shapestruct] (C111). *)
From Verif Require Import PyBase IndexModel DMModel StructModel StructSpec PowerModel PowerSpec
  IndexProofs StructProofs LayoutProofs LayoutThms LayoutExamples DMProofs PowerProofs PowerThms SliceProofs PowerThms2 PowerThms3 PowerThms4 PowerThms5
  SymmBlockThms StructsThms7 ExtraThms.
Open Scope list_scope.
Open Scope nat_scope.

Section P.
Context {T : Type} (zero : T).
Notation pel := (pel T).
Notation pay := (pay T).
Notation pstate := (pstate T).
Notation env := (env T).

(** ** Specification *)
(** [ByName e pos p l]: dimension [pos] of entry [e] is described by a structure, and the
    selector [p] (a name, names, [index[...]] or [indexf[...]]) stands for positions [l] of it. *)
Definition ByName (e : entry) (pos : nat) (p : pel) (l : list nat) : Prop :=
  exists sh s', e_shape e = Some sh /\ nth_error sh pos = Some (SDS s') /\ RowSel zero s' p l.
(** The selector written with numbers. *)
Definition byNumber (l : list nat) : pel := PLst (map (fun k => KI (Z.of_nat k)) l).
(** [p] is a name, a non-empty list of names or a delayed index. *)
Inductive IsName : pel -> Prop :=
| IsName_one : forall a, IsName (PStr a)
| IsName_list : forall ns, Forall (fun k => exists a, k = KS a) ns -> ns <> [] -> IsName (PLst ns)
| IsName_del : forall flat arg, IsName (PDel flat arg).
(** Dimension [pos] of [e] has no names. *)
Definition NoNames (e : entry) (pos : nat) : Prop :=
  match e_shape e with None => True | Some sh => match nth_error sh pos with Some (SDS _) => False | _ => True end end.
(** The names in [p] are not names of the structure of dimension [pos]. *)
Definition Unknown (e : entry) (pos : nat) (p : pel) : Prop :=
  exists sh s' x, e_shape e = Some sh /\ nth_error sh pos = Some (SDS s') /\
    match p with
    | PStr a => f_get zero s' [PStr a] = Err x
    | PLst ns => Forall (fun k => exists a, k = KS a) ns /\ ns <> [] /\ f_get zero s' [PLst ns] = Err x
    | PDel flat arg => (if flat then f_get zero s' arg else i_get zero s' arg) = Err x
    | _ => False
    end.
(** A list of numbers and names. *)
Definition Mixed (p : pel) : Prop := exists ns a i, p = PLst ns /\ In (KS a) ns /\ In (KI i) ns.
Definition BadName (e : entry) (pos : nat) (p : pel) : Prop := (IsName p /\ NoNames e pos) \/ Unknown e pos p \/ Mixed p.

(** ** What [delegation] gives *)
Lemma info_nth e sh s' pos : e_shape e = Some sh -> nth_error sh pos = Some (SDS s') ->
  nth_error (match ei_del (info zero e) with Some d => d | None => [] end) pos = Some (Some (index_getter s' (travS zero s'))) /\ ei_del (info zero e) <> None.
Proof. intros E H. unfold info. cbn [ei_del]. rewrite E. split; [|discriminate]. now rewrite nth_error_map_, H. Qed.
Lemma by_name e pos p l : ByName e pos p l -> exists d, delegation (Some (info zero e)) pos p = Ok d /\ dsel_sel d = Some (SelList (map Z.of_nat l)).
Proof. intros (sh & s' & E & H & HR). destruct (info_nth e sh s' pos E H). now apply (rowsel_del zero s' p l e pos). Qed.
Lemma by_number e pos l : delegation (Some (info zero e)) pos (byNumber l) = Ok (DSel (SelList (map Z.of_nat l))).
Proof. unfold byNumber. cbn [delegation]. rewrite <- (map_map Z.of_nat KI), ck_ints_map. reflexivity. Qed.
Lemma ck_ints_KS ns a : In (KS a) ns -> ck_ints ns = None.
Proof. induction ns as [|[b|i] ns IH]; [intros []|reflexivity|]. intros [H|H]; [discriminate|]. simpl. now rewrite (IH H). Qed.
Lemma bad_name e pos p d : BadName e pos p -> delegation (Some (info zero e)) pos p = Ok d -> d = DBad.
Proof.
  assert (HN : forall flat arg, NoNames e pos -> forall d, delegate (Some (info zero e)) pos flat arg <> Ok d).
  { intros flat arg H d'. unfold NoNames in H. unfold delegate, info. cbn [ei_del]. destruct (e_shape e) as [sh|]; [|discriminate].
    rewrite nth_error_map_. destruct (nth_error sh pos) as [[s'|k]|]; [destruct H|discriminate|discriminate]. }
  assert (HU : forall flat arg sh s' x, e_shape e = Some sh -> nth_error sh pos = Some (SDS s') -> index_getter s' (travS zero s') flat arg = Err x -> forall d, delegate (Some (info zero e)) pos flat arg <> Ok d).
  { intros flat arg sh s' x E H Hx d'. unfold delegate, info. cbn [ei_del]. rewrite E, nth_error_map_, H. cbn [option_map]. rewrite Hx. discriminate. }
  assert (HL : forall ns : list ck, Forall (fun k => exists a, k = KS a) ns -> ns <> [] -> ck_ints ns = None /\ forallb is_string ns = true).
  { intros ns Hs Hne. split.
    - destruct ns as [|k ns]; [contradiction|]. inversion Hs as [|? ? [a ->] _]; subst. reflexivity.
    - apply forallb_forall. intros k Hk. rewrite Forall_forall in Hs. destruct (Hs k Hk) as [a ->]. reflexivity. }
  intros [[Hi Hn]|[(sh & s' & x & E & H & HP)|(ns & a & i & -> & Ha & Hi)]] Hd.
  - exfalso. destruct Hi as [a|ns Hs Hne|flat arg]; cbn [delegation] in Hd; [|destruct (HL ns Hs Hne) as [E1 E2]; rewrite E1, E2 in Hd|]; eapply HN; eauto.
  - exfalso. destruct p as [a|i|sl|ns| | |l| |f|flat arg]; try (exfalso; exact HP); cbn [delegation] in Hd.
    + eapply HU; eauto.
    + destruct HP as (H0 & H1 & HP). destruct (HL ns H0 H1) as [E1 E2]. rewrite E1, E2 in Hd. eapply HU; eauto.
    + destruct flat; eapply HU; eauto.
  - cbn [delegation] in Hd. rewrite (ck_ints_KS ns a Ha) in Hd. replace (forallb is_string ns) with false in Hd; [congruence|].
    symmetry. apply not_true_iff_false. intros F. rewrite forallb_forall in F. specialize (F _ Hi). discriminate.
Qed.

(** ** Two selectors *)
(** Selectors by name and by number of dimension [pos] that mean the same. *)
Inductive Means (e : entry) (pos : nat) : pel -> pel -> Prop :=
| Means_name : forall p l, ByName e pos p l -> Means e pos p (byNumber l)
| Means_ord : forall p sa, sel_of p = Some sa -> Means e pos p p.
Lemma means_del e pos p q : Means e pos p q -> exists d d', delegation (Some (info zero e)) pos p = Ok d /\ delegation (Some (info zero e)) pos q = Ok d' /\ dsel_sel d = dsel_sel d' /\ dsel_sel d <> None.
Proof.
  destruct 1 as [p l H|p sa H].
  - destruct (by_name e pos p l H) as (d & D1 & D2). exists d, (DSel (SelList (map Z.of_nat l))). split; [exact D1|]. split; [apply by_number|]. split; [exact D2|rewrite D2; discriminate].
  - pose proof (delegation_sel (Some (info zero e)) pos p sa H) as E. exists (DSel sa), (DSel sa). split; [exact E|]. split; [exact E|]. split; [reflexivity|discriminate].
Qed.
Lemma pei_two ei flip (i : rval T) a b : (forall f, a <> PFun f) -> a <> PNest ->
  performExtraIndex ei flip i [a; b] = rbind (delegation ei 0 a) (fun a' => rbind (delegation ei 1 b) (fun b' => if flip then getitem2 i b' a' else getitem2 i a' b')).
Proof. intros H1 H2. destruct a; try reflexivity; [contradiction|]. now destruct (H1 f). Qed.
Lemma pei_one ei flip (i : rval T) a : (forall f, a <> PFun f) -> a <> PNest -> performExtraIndex ei flip i [a] = rbind (delegation ei 0 a) (fun a' => getitem1 i a').
Proof. intros H1 H2. destruct a; try reflexivity; [contradiction|]. now destruct (H1 f). Qed.
Lemma rowsel_plain s' p l : RowSel zero s' p l -> (forall f, p <> PFun f) /\ p <> PNest.
Proof. destruct 1; split; intros; discriminate. Qed.
Lemma means_plain e pos p q : Means e pos p q -> ((forall f, p <> PFun f) /\ p <> PNest) /\ ((forall f, q <> PFun f) /\ q <> PNest).
Proof.
  destruct 1 as [p l (sh & s' & _ & _ & H)|p sa H].
  - split; [exact (rowsel_plain s' p l H)|]. split; intros; discriminate.
  - assert ((forall f, p <> PFun f) /\ p <> PNest); [|tauto]. split; intros; intros ->; discriminate.
Qed.
Lemma means_pei e flip (i : rval T) a b a' b' : Means e 0 a a' -> Means e 1 b b' ->
  performExtraIndex (Some (info zero e)) flip i [a; b] = performExtraIndex (Some (info zero e)) flip i [a'; b'].
Proof.
  intros Ha Hb. destruct (means_plain _ _ _ _ Ha) as [[P1 P2] [P3 P4]]. rewrite !pei_two by assumption.
  destruct (means_del _ _ _ _ Ha) as (d & d' & D1 & D2 & D3 & _), (means_del _ _ _ _ Hb) as (g & g' & G1 & G2 & G3 & _).
  rewrite D1, D2. cbn [rbind]. rewrite G1, G2. cbn [rbind]. unfold getitem2. now rewrite D3, G3.
Qed.
Lemma pei_dispatch ei (en : env) md pl ci ex ex' : ex <> [] -> ex' <> [] ->
  (forall flip i, performExtraIndex (T := T) ei flip i ex = performExtraIndex ei flip i ex') -> forall st,
  dispatch zero en md pl ci (Some ex) ei st = dispatch zero en md pl ci (Some ex') ei st.
Proof.
  intros N N' E st. destruct ex as [|x ex]; [contradiction|]. destruct ex' as [|x' ex']; [contradiction|]. clear N N'.
  destruct md; cbn [dispatch].
  - unfold getter. cbn [extra]. destruct (cmap_get ci (en_map en)); [|reflexivity]. now rewrite E.
  - unfold setter. cbn [extra]. unfold mbind, mlift. destruct (to_mtype pl) as [m|]; [|reflexivity]. destruct (cmap_get ci (en_map en)) as [mi|]; [|reflexivity].
    rewrite (E false). destruct (performExtraIndex ei false (RIdx mi) _) as [r|]; [|reflexivity]; destruct r; try reflexivity. destruct (is_symm ei); [|reflexivity].
    rewrite (E true). destruct (performExtraIndex ei true (RIdx mi) _) as [r|]; [|reflexivity]; destruct r; try reflexivity. destruct (dm_is_scalar m); [reflexivity|].
    destruct (match ei with Some e => ei_orig e | None => None end) as [orig|]; [|reflexivity]. now rewrite E.
  - unfold flatget, imget. cbn [extra]. destruct (cmap_get ci (en_map en)); [|reflexivity]. now rewrite E.
  - unfold imget. cbn [extra]. destruct (cmap_get ci (en_map en)); [|reflexivity]. now rewrite E.
  - reflexivity.
Qed.
Lemma trav_same s ci e (en : env) md pl ex ex' st : Wf s -> At s ci e -> e_struct e = None -> ex <> [] -> ex' <> [] ->
  (forall flip i, performExtraIndex (T := T) (Some (info zero e)) flip i ex = performExtraIndex (Some (info zero e)) flip i ex') ->
  travS zero s en md (pidx ci ++ ex) [] pl st = travS zero s en md (pidx ci ++ ex') [] pl st.
Proof.
  intros Hw Ha He N N' E. rewrite !(travS_at zero s ci e Ha Hw). unfold endD, subT. rewrite He.
  pose proof (pei_dispatch (Some (info zero e)) en md pl ([] ++ ci) ex ex' N N' E) as D.
  destruct ex as [|x ex]; [contradiction|]. destruct ex' as [|x' ex']; [contradiction|]. unfold mwrap. now rewrite D.
Qed.

(** Reading, writing and indexing with names is the same as with the positions of the names. *)
Theorem names_are_numbers s ci e a b a' b' : Wf s -> At s ci e -> e_struct e = None -> Means e 0 a a' -> Means e 1 b b' ->
  (forall (en : env) st, getitem zero s en (pidx ci ++ [a; b]) st = getitem zero s en (pidx ci ++ [a'; b']) st) /\
  (forall (en : env) v st, setitem zero s en (pidx ci ++ [a; b]) v st = setitem zero s en (pidx ci ++ [a'; b']) v st) /\
  i_get zero s (pidx ci ++ [a; b]) = i_get zero s (pidx ci ++ [a'; b']) /\ f_get zero s (pidx ci ++ [a; b]) = f_get zero s (pidx ci ++ [a'; b']).
Proof.
  intros Hw Hat He Ha Hb.
  assert (E : forall (en : env) md pl st, travS zero s en md (pidx ci ++ [a; b]) [] pl st = travS zero s en md (pidx ci ++ [a'; b']) [] pl st).
  { intros en md pl st. apply (trav_same s ci e); auto; try discriminate. intros flip i. now apply means_pei. }
  split; [intros en st; unfold getitem; now rewrite E|]. split; [intros en v st; unfold setitem; now rewrite E|].
  unfold i_get, f_get, index_getter. destruct (casadi_structure s) as [c|]; [|split; reflexivity]. cbn [rbind]. now rewrite !E.
Qed.
Lemma numbers_select n l : Forall (fun k => k < n) l -> Selects (T := T) n (byNumber l) l.
Proof.
  intros H. unfold byNumber. rewrite <- (map_map Z.of_nat KI). constructor. induction H as [|k l Hk _ IH]; constructor; [|exact IH]. unfold PosIs. lia.
Qed.

(** The block that names select, element by element. *)
Theorem names_read s c (st : pstate) ci e R a b la lb : Obj s c st -> At s ci e -> e_struct e = None -> e_symm e = false ->
  getitem zero s (num_env c) (pidx ci) st = Ok (RMat R) ->
  ByName e 0 a la -> ByName e 1 b lb -> Forall (fun k => k < dm_nr R) la -> Forall (fun k => k < dm_nc R) lb ->
  exists E, getitem zero s (num_env c) (pidx ci ++ [a; b]) st = Ok (RMat E) /\ dm_shape E = (length la, length lb) /\
    forall x y p q, nth_error la x = Some p -> nth_error lb y = Some q -> dm_at E (x, y) = dm_at R (p, q).
Proof.
  intros Ho Hat He Hs HR Ha Hb Hla Hlb.
  destruct (names_are_numbers s ci e a b _ _ (ob_wf _ _ _ Ho) Hat He (Means_name e 0 a la Ha) (Means_name e 1 b lb Hb)) as [G _].
  rewrite G. apply (extra_block_read zero s c st ci e R (byNumber la) (byNumber lb) la lb Ho Hat He Hs HR); now apply numbers_select.
Qed.
Theorem names_write s c (st : pstate) ci e R a b la lb v M : Obj s c st -> At s ci e -> e_struct e = None -> e_symm e = false ->
  getitem zero s (num_env c) (pidx ci) st = Ok (RMat R) ->
  ByName e 0 a la -> ByName e 1 b lb -> Forall (fun k => k < dm_nr R) la -> Forall (fun k => k < dm_nc R) lb -> NoDup la -> NoDup lb ->
  pay_ok v -> to_mtype v = Ok M -> dm_shape M = (length la, length lb) ->
  exists st' r R', setitem zero s (num_env c) (pidx ci ++ [a; b]) v st = (st', Ok r) /\
    getitem zero s (num_env c) (pidx ci) st' = Ok (RMat R') /\ dm_sp R' = dm_sp R /\
    (forall x y p q, nth_error la x = Some p -> nth_error lb y = Some q -> In (p, q) (sp_pat (dm_sp R)) -> dm_at R' (p, q) = Some (dm_val zero M (x, y))) /\
    (forall p q, ~ (In p la /\ In q lb) -> dm_at R' (p, q) = dm_at R (p, q)) /\
    (forall ii, i_get zero s (pidx ci) = Ok ii -> unchanged (positions ii) st st').
Proof.
  intros Ho Hat He Hs HR Ha Hb Hla Hlb Na Nb Hv HM Hsh.
  destruct (names_are_numbers s ci e a b _ _ (ob_wf _ _ _ Ho) Hat He (Means_name e 0 a la Ha) (Means_name e 1 b lb Hb)) as (_ & G & _).
  rewrite G. apply (extra_block_write zero s c st ci e R (byNumber la) (byNumber lb) la lb v M Ho Hat He Hs HR); auto; now apply numbers_select.
Qed.

(** ** One selector *)
(** [index[arg]] whose index is a row of more or fewer than one element. *)
Definition RowIndex (e : entry) (p : pel) (l : list nat) : Prop :=
  exists sh s' arg m, e_shape e = Some sh /\ nth_error sh 0 = Some (SDS s') /\ p = PDel false arg /\ i_get zero s' arg = Ok (RIdx m) /\
    sp_is_dense (dm_sp m) = true /\ dm_nr m = 1 /\ dm_nc m <> 1 /\ dm_nz m = l.
Lemma row_del e p l : RowIndex e p l -> delegation (Some (info zero e)) 0 p = Ok (DRow (map Z.of_nat l)).
Proof.
  intros (sh & s' & arg & m & E & H & -> & Hi & Hd & H1 & H2 & <-). destruct (info_nth e sh s' 0 E H) as [Hn Hne]. cbn [delegation]. unfold delegate.
  destruct (ei_del (info zero e)) as [d|]; [|contradiction]. rewrite Hn. unfold i_get in Hi. rewrite Hi. cbn [rbind]. rewrite Hd, H1. cbn [andb Nat.eqb].
  replace (dm_nc m =? 1) with false by (symmetry; now apply Nat.eqb_neq). reflexivity.
Qed.
Lemma flat_del e p l : ByName e 0 p l -> ~ RowIndex e p l -> delegation (Some (info zero e)) 0 p = Ok (DSel (SelList (map Z.of_nat l))).
Proof.
  intros (sh & s' & E & H & HR) Hno. destruct (info_nth e sh s' 0 E H) as [Hn Hne].
  destruct (by_name e 0 p l) as (d & D1 & D2); [exists sh, s'; auto|]. rewrite D1. f_equal.
  destruct d as [sa|l'|]; cbn [dsel_sel] in D2; [now injection D2 as ->| |discriminate]. exfalso. apply Hno. injection D2 as ->.
  destruct HR as [a l H1|ns l Hs' Hne' H1|arg l H1|arg m H1 Hd1 Hd2]; cbn [delegation] in D1.
  - unfold delegate in D1. destruct (ei_del (info zero e)) as [d|]; [|contradiction]. rewrite Hn in D1. unfold f_get in H1. rewrite H1 in D1. discriminate.
  - rewrite (ck_ints_KS ns) with (a := match ns with KS a :: _ => a | _ => EmptyString end) in D1.
    + destruct (forallb is_string ns); [|discriminate]. unfold delegate in D1. destruct (ei_del (info zero e)) as [d|]; [|contradiction]. rewrite Hn in D1. unfold f_get in H1. rewrite H1 in D1. discriminate.
    + destruct ns as [|k ns]; [contradiction|]. inversion Hs' as [|? ? [a ->] _]; subst. now left.
  - unfold delegate in D1. destruct (ei_del (info zero e)) as [d|]; [|contradiction]. rewrite Hn in D1. unfold f_get in H1. rewrite H1 in D1. discriminate.
  - unfold delegate in D1. destruct (ei_del (info zero e)) as [d|]; [|contradiction]. rewrite Hn in D1. pose proof H1 as H1'. unfold i_get in H1. rewrite H1 in D1. cbn [rbind] in D1. rewrite Hd1 in D1. cbn [andb] in D1.
    destruct (Nat.eqb_spec (dm_nc m) 1); [discriminate|]. exists sh, s', arg, m. repeat split; auto. now destruct Hd2.
Qed.
Theorem name_is_numbers s ci e p l : Wf s -> At s ci e -> e_struct e = None -> ByName e 0 p l -> ~ RowIndex e p l ->
  (forall (en : env) st, getitem zero s en (pidx ci ++ [p]) st = getitem zero s en (pidx ci ++ [byNumber l]) st) /\
  (forall (en : env) v st, setitem zero s en (pidx ci ++ [p]) v st = setitem zero s en (pidx ci ++ [byNumber l]) v st) /\
  i_get zero s (pidx ci ++ [p]) = i_get zero s (pidx ci ++ [byNumber l]) /\ f_get zero s (pidx ci ++ [p]) = f_get zero s (pidx ci ++ [byNumber l]).
Proof.
  intros Hw Hat He Hp Hno. pose proof Hp as (sh & s' & _ & _ & HR). destruct (rowsel_plain s' p l HR) as [P1 P2].
  assert (E : forall (en : env) md pl st, travS zero s en md (pidx ci ++ [p]) [] pl st = travS zero s en md (pidx ci ++ [byNumber l]) [] pl st).
  { intros en md pl st. apply (trav_same s ci e); auto; try discriminate. intros flip i. rewrite !pei_one by (assumption || discriminate || (intros; discriminate)).
    now rewrite (flat_del e p l Hp Hno), by_number. }
  split; [intros en st; unfold getitem; now rewrite E|]. split; [intros en v st; unfold setitem; now rewrite E|].
  unfold i_get, f_get, index_getter. destruct (casadi_structure s) as [c|]; [|split; reflexivity]. cbn [rbind]. now rewrite !E.
Qed.
Lemma row_pei e p l m flip : RowIndex e p l -> Forall (fun k => k < dm_nr m * dm_nc m) l -> performExtraIndex (T := T) (Some (info zero e)) flip (RIdx m) [p] = Ok (RIdx (dm_linr m l)).
Proof.
  intros Hp Hl. assert (P : (forall f, p <> PFun f) /\ p <> PNest) by (destruct Hp as (sh & s' & arg & m' & _ & _ & -> & _); split; intros; discriminate).
  destruct P as [P1 P2]. rewrite pei_one by assumption. rewrite (row_del e p l Hp). cbn [rbind getitem1]. unfold dm_get1r, dm_numel. now rewrite (sel_list _ l Hl).
Qed.
(** A row of positions gives a row of elements, or a column when the entry is a column. *)
Theorem row_read s c (st : pstate) ci e R p l : Obj s c st -> At s ci e -> e_struct e = None -> e_symm e = false ->
  getitem zero s (num_env c) (pidx ci) st = Ok (RMat R) -> RowIndex e p l -> Forall (fun k => k < dm_nr R * dm_nc R) l ->
  exists E, getitem zero s (num_env c) (pidx ci ++ [p]) st = Ok (RMat E) /\ dm_shape E = (if dm_nc R =? 1 then (length l, 1) else (1, length l)) /\
    forall x r q, r < dm_nr R -> nth_error l x = Some (r + q * dm_nr R) -> dm_at E (if dm_nc R =? 1 then (x, 0) else (0, x)) = dm_at R (r, q).
Proof.
  intros Ho Ha He Hs HR Hp Hl. pose proof (ob_wf _ _ _ Ho) as Hw. pose proof (ob_built _ _ _ Ho) as Hc.
  destruct (map_get_leaf s c ci e Hw Hc (At_Leaf _ _ _ Ha He)) as (m & Hm & _).
  rewrite (getitem_at zero s c st ci e m Ho Ha Hs Hm) in HR. injection HR as <-.
  change (dm_nr (vals zero (ps_master st) m)) with (dm_nr m) in *. change (dm_nc (vals zero (ps_master st) m)) with (dm_nc m) in *.
  assert (Hok : DmOk (dm_linr m l)) by (unfold dm_linr; destruct (_ =? _); apply dm_build_ok).
  exists (vals zero (ps_master st) (dm_linr m l)). split; [|split].
  - apply (getitem_extra zero s c st ci e m [p] (dm_linr m l) Ho Ha He Hs Hm ltac:(discriminate) Hok); [|now apply row_pei].
    unfold dm_linr. destruct (_ =? _); intros k Hk; apply dm_build_nz in Hk as (y & _ & _ & Hk); eapply dm_at_nz; eauto.
  - change (dm_shape (dm_linr m l) = if dm_nc m =? 1 then (length l, 1) else (1, length l)). unfold dm_linr. destruct (_ =? _); reflexivity.
  - intros x r q Hr Hx. unfold vals. rewrite !dm_at_map. f_equal. unfold dm_linr. assert (Hlt : x < length l) by (apply nth_error_Some; congruence). apply Nat.ltb_lt in Hlt.
    assert (D : (r + q * dm_nr m) mod dm_nr m = r /\ (r + q * dm_nr m) / dm_nr m = q) by (split; [rewrite Nat.mod_add, Nat.mod_small|rewrite Nat.div_add, Nat.div_small]; lia).
    destruct (_ =? _); rewrite dm_build_at; cbn [fst snd]; rewrite Hlt; cbn [andb Nat.ltb Nat.leb]; rewrite (nth_error_nth _ _ 0 Hx), (proj1 D), (proj2 D); reflexivity.
Qed.

(** Writing through a row of positions is the same as writing through a list. *)
Definition vec_cells (g : nat -> option nat) (k : nat) : list (nat * nat) := flat_map (fun i => match g i with Some v => [(i, v)] | None => [] end) (seq 0 k).
Lemma build_col g k : dm_build k 1 (fun p => g (fst p)) = DM (Spy k 1 (map (fun x => (fst x, 0)) (vec_cells g k))) (map snd (vec_cells g k)).
Proof.
  unfold dm_build, vec_cells, all_pos. cbn [seq flat_map]. rewrite app_nil_r. generalize (seq 0 k) as l. intros l.
  assert (E : flat_map (fun p : nat * nat => match g (fst p) with Some v => [(p, v)] | None => [] end) (map (fun r => (r, 0)) l) =
              map (fun x : nat * nat => ((fst x, 0), snd x)) (flat_map (fun i => match g i with Some v => [(i, v)] | None => [] end) l)).
  { induction l as [|i l IH]; [reflexivity|]. simpl. rewrite IH, map_app. destruct (g i); reflexivity. }
  rewrite E, !map_map. reflexivity.
Qed.
Lemma build_row g k : dm_build 1 k (fun p => g (snd p)) = DM (Spy 1 k (map (fun x => (0, fst x)) (vec_cells g k))) (map snd (vec_cells g k)).
Proof.
  unfold dm_build, vec_cells, all_pos. cbn [seq map]. generalize (seq 0 k) as l. intros l.
  assert (E : flat_map (fun p : nat * nat => match g (snd p) with Some v => [(p, v)] | None => [] end) (flat_map (fun c => [(0, c)]) l) =
              map (fun x : nat * nat => ((0, fst x), snd x)) (flat_map (fun i => match g i with Some v => [(i, v)] | None => [] end) l)).
  { induction l as [|i l IH]; [reflexivity|]. simpl. rewrite IH, map_app. destruct (g i); reflexivity. }
  rewrite E, !map_map. reflexivity.
Qed.
Lemma set_orient g k (w : list T) M : 1 < k -> DmOk M -> inb w (dm_build k 1 (fun p => g (fst p))) ->
  vec_set zero w (dm_build k 1 (fun p => g (fst p))) M = vec_set zero w (dm_build 1 k (fun p => g (snd p))) M.
Proof.
  intros Hk HM Hb.
  assert (Hb' : inb w (dm_build 1 k (fun p => g (snd p)))) by (revert Hb; rewrite build_col, build_row; unfold inb; auto).
  assert (Sc : dm_sp (dm_build k 1 (fun p => g (fst p))) = Spy k 1 (map (fun x => (fst x, 0)) (vec_cells g k))) by (now rewrite build_col).
  assert (Sr : dm_sp (dm_build 1 k (fun p => g (snd p))) = Spy 1 k (map (fun x => (0, fst x)) (vec_cells g k))) by (now rewrite build_row).
  assert (Z : dm_nz (dm_build k 1 (fun p => g (fst p))) = dm_nz (dm_build 1 k (fun p => g (snd p)))) by (rewrite build_col, build_row; reflexivity).
  assert (F : fits M (dm_sp (dm_build k 1 (fun p => g (fst p)))) <-> fits M (dm_sp (dm_build 1 k (fun p => g (snd p))))).
  { rewrite Sc, Sr. unfold fits. cbn [sp_nr sp_nc]. rewrite (Nat.min_r k 1), (Nat.min_l 1 k) by lia. tauto. }
  destruct (vec_set_ok zero w _ M (dm_build_ok k 1 (fun p => g (fst p))) HM Hb) as [[F1 ->]|[F1 ->]], (vec_set_ok zero w _ M (dm_build_ok 1 k (fun p => g (snd p))) HM Hb') as [[F2 ->]|[F2 ->]]; try tauto.
  rewrite Z. do 2 f_equal. rewrite Sc, Sr. cbn [sp_pat]. rewrite !map_map. apply map_ext. intros [i v]. unfold fit. cbn [sp_nr sp_nc fst snd].
  rewrite Sc in F1. unfold fits in F1. cbn [sp_nr sp_nc] in F1. destruct (dm_is_scalar M) eqn:Es; [reflexivity|].
  destruct F1 as [F1|[F1|[F1 _]]]; injection F1 as E1 E2.
  - exfalso. unfold dm_is_scalar in Es. rewrite E1, E2 in Es. discriminate.
  - rewrite E1, E2, !Nat.eqb_refl. replace (1 =? k) with false by (symmetry; apply Nat.eqb_neq; lia). reflexivity.
  - rewrite E1, E2, !Nat.eqb_refl. replace (k =? 1) with false by (symmetry; apply Nat.eqb_neq; lia). reflexivity.
Qed.
Lemma set_linr (w : list T) m K M : 1 < length K -> DmOk M -> inb w m -> vec_set zero w (dm_linr m K) M = vec_set zero w (dm_lin m K) M.
Proof.
  intros Hk HM Hb. pose proof (lin_inb w m K Hb) as Hl. unfold dm_linr, dm_lin in *. replace (length K =? 1) with false in * by (symmetry; apply Nat.eqb_neq; lia). cbn [negb] in *. rewrite andb_true_r in *.
  set (g := fun i => dm_at m (nth i K 0 mod dm_nr m, nth i K 0 / dm_nr m)).
  assert (inb w (dm_build (length K) 1 (fun p => g (fst p)))).
  { unfold inb in *. rewrite Forall_forall in *. intros k Hin. apply dm_build_nz in Hin as (y & _ & _ & Hin). apply Hb. eapply dm_at_nz. exact Hin. }
  pose proof (set_orient g (length K) w M Hk HM H) as E. unfold g in E. destruct (dm_nr m =? 1), (dm_nc m =? 1); auto.
Qed.
Theorem row_write s c (st : pstate) ci e R p l v : Obj s c st -> At s ci e -> e_struct e = None -> e_symm e = false -> pay_ok v ->
  getitem zero s (num_env c) (pidx ci) st = Ok (RMat R) -> RowIndex e p l -> Forall (fun k => k < dm_nr R * dm_nc R) l -> 1 < length l ->
  setitem zero s (num_env c) (pidx ci ++ [p]) v st = setitem zero s (num_env c) (pidx ci ++ [byNumber l]) v st.
Proof.
  intros Ho Ha He Hs Hv HR Hp Hl Hlen. pose proof (ob_wf _ _ _ Ho) as Hw. pose proof (ob_built _ _ _ Ho) as Hc.
  destruct (map_get_leaf s c ci e Hw Hc (At_Leaf _ _ _ Ha He)) as (m & Hm & _).
  destruct (map_ok s c ci m Hw Hc Hm) as (_ & Hok & Hnd & Hb & _).
  rewrite (getitem_at zero s c st ci e m Ho Ha Hs Hm) in HR. injection HR as <-.
  change (dm_nr (vals zero (ps_master st) m)) with (dm_nr m) in *. change (dm_nc (vals zero (ps_master st) m)) with (dm_nc m) in *.
  assert (Hib : inb (ps_master st) m) by (unfold inb; now rewrite (ob_len _ _ _ Ho)).
  assert (P1 : performExtraIndex (T := T) (Some (info zero e)) false (RIdx m) [p] = Ok (RIdx (dm_linr m l))) by (now apply row_pei).
  assert (P2 : performExtraIndex (T := T) (Some (info zero e)) false (RIdx m) [byNumber l] = Ok (RIdx (dm_lin m l))).
  { rewrite pei_one by (discriminate || (intros; discriminate)). rewrite by_number. cbn [rbind getitem1]. unfold dm_get1, dm_numel. now rewrite (sel_list _ l Hl). }
  rewrite !(setitem_extra zero s c st ci e _ v Ha Hw He) by discriminate. cbn [dispatch app]. unfold mwrap, setter, mbind, mlift. destruct (to_mtype v) as [M|] eqn:HM; [|reflexivity].
  cbn [num_env en_map extra]. rewrite Hm, P1, P2. cbn [is_symm info ei_symm]. rewrite Hs. unfold master_set. cbn [en_kind num_env].
  now rewrite (set_linr (ps_master st) m l M Hlen (to_mtype_ok v M Hv HM) Hib).
Qed.

(** ** Selectors that are refused *)
Lemma bad_two e flip (i : rval T) a b : BadName e 0 a \/ (BadName e 1 b /\ (forall f, a <> PFun f) /\ a <> PNest) -> exists x, performExtraIndex (Some (info zero e)) flip i [a; b] = Err x.
Proof.
  intros H. assert (P : (forall f, a <> PFun f) /\ a <> PNest).
  { destruct H as [[[H _]|[(sh & s' & x & _ & _ & H)|(ns & y & k & -> & _)]]|H]; [destruct H; split; intros; discriminate| |split; intros; discriminate|tauto].
    destruct a; try (exfalso; exact H); split; intros; discriminate. }
  rewrite pei_two by tauto. destruct (delegation (Some (info zero e)) 0 a) as [d|] eqn:E1; [|eexists; reflexivity]. cbn [rbind].
  destruct (delegation (Some (info zero e)) 1 b) as [d'|] eqn:E2; [|eexists; reflexivity]. cbn [rbind].
  destruct H as [H|[H _]]; [rewrite (bad_name e 0 a d H E1)|rewrite (bad_name e 1 b d' H E2)]; exists ENotImpl; unfold getitem2; cbn [dsel_sel]; destruct flip, i; try reflexivity; destruct (dsel_sel d); try reflexivity; destruct (dsel_sel d'); reflexivity.
Qed.
Lemma bad_one e flip (i : rval T) a : BadName e 0 a -> exists x, performExtraIndex (Some (info zero e)) flip i [a] = Err x.
Proof.
  intros H. assert (P : (forall f, a <> PFun f) /\ a <> PNest).
  { destruct H as [[H _]|[(sh & s' & x & _ & _ & H)|(ns & y & k & -> & _)]]; [destruct H; split; intros; discriminate| |split; intros; discriminate].
    destruct a; try (exfalso; exact H); split; intros; discriminate. }
  rewrite pei_one by tauto. destruct (delegation (Some (info zero e)) 0 a) as [d|] eqn:E1; [|eexists; reflexivity]. cbn [rbind].
  rewrite (bad_name e 0 a d H E1). exists ENotImpl. destruct i; reflexivity.
Qed.
Lemma bad_extra s c (st : pstate) ci e ex v : Obj s c st -> At s ci e -> e_struct e = None -> ex <> [] ->
  (forall i, exists x, performExtraIndex (T := T) (Some (info zero e)) false i ex = Err x) ->
  getitem zero s (num_env c) (pidx ci ++ ex) st = Err EException /\ setitem zero s (num_env c) (pidx ci ++ ex) v st = (st, Err EException).
Proof.
  intros Ho Ha He Hne Hx. pose proof (ob_wf _ _ _ Ho) as Hw. pose proof (ob_built _ _ _ Ho) as Hc.
  destruct (map_get_leaf s c ci e Hw Hc (At_Leaf _ _ _ Ha He)) as (m & Hm & _). destruct (Hx (RIdx m)) as (x & E). split.
  - exact (getitem_extra_err zero s c st ci e m ex x Ho Ha He Hm Hne E).
  - rewrite (setitem_extra zero s c st ci e ex v Ha Hw He Hne). cbn [dispatch app]. unfold mwrap, setter, mbind, mlift. destruct (to_mtype v); [|reflexivity].
    cbn [num_env en_map extra]. now rewrite Hm, E.
Qed.
Theorem names_refused s c (st : pstate) ci e a b v : Obj s c st -> At s ci e -> e_struct e = None ->
  BadName e 0 a \/ (BadName e 1 b /\ (forall f, a <> PFun f) /\ a <> PNest) ->
  getitem zero s (num_env c) (pidx ci ++ [a; b]) st = Err EException /\ setitem zero s (num_env c) (pidx ci ++ [a; b]) v st = (st, Err EException).
Proof. intros Ho Ha He H. apply (bad_extra s c st ci e); auto; [discriminate|]. intros i. now apply bad_two. Qed.
Theorem name_refused s c (st : pstate) ci e a v : Obj s c st -> At s ci e -> e_struct e = None -> BadName e 0 a ->
  getitem zero s (num_env c) (pidx ci ++ [a]) st = Err EException /\ setitem zero s (num_env c) (pidx ci ++ [a]) v st = (st, Err EException).
Proof. intros Ho Ha He H. apply (bad_extra s c st ci e); auto; [discriminate|]. intros i. now apply bad_one. Qed.

End P.
