(** Prefix views and repeated (C31, C32). *)
From Verif Require Import PyBase IndexModel DMModel StructModel StructSpec PowerModel PowerSpec
  IndexProofs StructProofs LayoutProofs LayoutThms LayoutExamples DMProofs PowerProofs PowerThms SliceProofs PowerThms2 PowerThms3 PowerThms4 PowerThms5
  EntryModel EntrySpec EntryProofs StructsModel StructsSpec StructsThms1 StructsThms2 StructsThms3 StructsThms4 StructsThms5 StructsThms6 StructsThms7 StructsThms8.
Open Scope nat_scope.

Section P.
Context {T : Type} (zero : T).
Notation rval := (rval T).
Notation pel := (pel T).
Notation pay := (pay T).
Notation env := (env T).
Notation pstate := (pstate T).
Notation sobj := (sobj T).
Notation view := (view T).

Lemma mwrap_travS s en md pi ci v st : mwrap (travS zero s en md pi ci v) st = travS zero s en md pi ci v st.
Proof. rewrite !travS_eq. destruct pi; cbn [travS_body]; apply mwrap_mwrap. Qed.

(** Access below a sub-structure, through an index that may count from the end. *)
Lemma travS_below s raw P e s' en md q v st : Wf s -> Addr s raw P e -> e_struct e = Some s' -> q <> [] ->
  travS zero s en md (pidx raw ++ q) [] v st = travS zero s' en md q P v st.
Proof.
  intros Hw Ha Es Hq. rewrite (travS_addr zero s raw P e Ha Hw). simpl. rewrite <- mwrap_travS. apply mwrap_eq.
  unfold endD, subT. rewrite Es. destruct q; [congruence|reflexivity].
Qed.

Section Access.
Variables (s : structure) (c : cstruct) (raw P : cidx) (e : entry) (s' : structure) (c' : cstruct) (l1 l2 : list cidx).
Hypothesis Hw : Wf s.
Hypothesis Hc : casadi_structure s = Ok c.
Hypothesis Ha : Addr s raw P e.
Hypothesis Es : e_struct e = Some s'.
Hypothesis Hb : Block s P s'.
Hypothesis Hc' : casadi_structure s' = Ok c'.
Hypothesis Hs : leaves s = l1 ++ map (app P) (leaves s') ++ l2.

Lemma access_get kd x w y mir sto mp q : length x = tot s l1 -> length w = cs_size c' -> (kd = KRep -> mir = x ++ w ++ y) -> q <> [] -> no_fun q ->
  getitem zero s (Env (cs_map c) [] kd mp) (pidx raw ++ q) (PState (x ++ w ++ y) mir sto) = getitem zero s' (num_env c') q (PState w [] []).
Proof.
  intros Hx Hl Hm Hq Hf. unfold getitem. rewrite (travS_below s raw P e s') by assumption.
  pose proof (rel_travS zero s c P s' c' l1 l2 Hw Hc Hb Hc' Hs x y mir sto kd mp Hx s' MGet q [] PayNone) as H.
  destruct (fun A B C => H A B C w Hl) as (w' & _ & _ & E); [split; [left; reflexivity|discriminate]|exact Hf|now left|].
  rewrite app_nil_r in E. replace (PState (x ++ w ++ y) mir sto) with (big x y mir sto kd w); [now rewrite E|].
  unfold big, mirf. destruct kd; [reflexivity..|]. now rewrite <- Hm.
Qed.
Lemma access_set kd x w y mir sto mp q v : length x = tot s l1 -> length w = cs_size c' -> (kd = KRep -> mir = x ++ w ++ y) -> q <> [] -> no_fun q ->
  (kd <> KPlain -> PayFull v) ->
  exists w' r, length w' = cs_size c' /\ setitem zero s' (num_env c') q v (PState w [] []) = (PState w' [] [], r) /\
  setitem zero s (Env (cs_map c) [] kd mp) (pidx raw ++ q) v (PState (x ++ w ++ y) mir sto) =
    (PState (x ++ w' ++ y) (match kd with KRep => x ++ w' ++ y | _ => mir end) sto, r).
Proof.
  intros Hx Hl Hm Hq Hf Hv. unfold setitem. rewrite (travS_below s raw P e s') by assumption.
  pose proof (rel_travS zero s c P s' c' l1 l2 Hw Hc Hb Hc' Hs x y mir sto kd mp Hx s' MSet q [] v) as H.
  destruct (fun A B C => H A B C w Hl) as (w' & Hl' & E1 & E); [split; [right; reflexivity|intros _; exact Hv]|exact Hf|now left|].
  rewrite app_nil_r in E. replace (PState (x ++ w ++ y) mir sto) with (big x y mir sto kd w).
  - exists w', (snd (travS zero s' (num_env c') MSet q [] v (small w))). split; [exact Hl'|]. split; [|exact E].
    change (PState w [] []) with (small w). change (PState w' [] []) with (small w'). rewrite <- E1. apply surjective_pairing.
  - unfold big, mirf. destruct kd; [reflexivity..|]. now rewrite <- Hm.
Qed.
End Access.

(** ** C32 *)
(** Reading and writing through a prefix is reading and writing at the concatenated index. *)
Theorem prefix_concat (o : sobj) p q v :
  prefix_get zero (prefix_ o p) q = so_get zero o (p ++ q) /\
  prefix_set zero (prefix_ o p) q v = (prefix_ (fst (so_set zero o (p ++ q) v)) p, snd (so_set zero o (p ++ q) v)).
Proof.
  split; [reflexivity|]. unfold prefix_set, prefix_. cbn [px_obj px_prefix]. destruct (so_set zero o (p ++ q) v); reflexivity.
Qed.

(** When the prefix is the index of a sub-structure (integers may count from the end), the
    view behaves like an object of the sub-structure on the slice [start .. start + size). *)
Theorem prefix_block s c raw P e s' c' : Wf s -> casadi_structure s = Ok c -> Addr s raw P e -> e_struct e = Some s' -> Block s P s' ->
  casadi_structure s' = Ok c' ->
  exists start, start + cs_size c' <= cs_size c /\
  (cs_size c' <> 0 -> cmap_get P (cs_map c) = Some (dm_col (seq start (cs_size c')))) /\
  forall (x w y : list T) q, length x = start -> length w = cs_size c' -> length (x ++ w ++ y) = cs_size c -> q <> [] -> no_fun q ->
    let o := plain_obj c (x ++ w ++ y) in let o' := plain_obj c' w in
    prefix_get zero (prefix_ o (pidx raw)) q = so_get zero o' q /\
    forall v o2 r, so_set zero o' q v = (o2, r) ->
      prefix_set zero (prefix_ o (pidx raw)) q v = (prefix_ (plain_obj c (x ++ so_cat o2 ++ y)) (pidx raw), r) /\ length (so_cat o2) = cs_size c'.
Proof.
  intros Hw Hc Ha Es Hb Hc'. pose proof (Block_Wf s P s' Hw Hb) as Hw'. destruct (Block_segment s P s' Hw Hb) as (l1 & l2 & Hs).
  assert (Ecs : cs_struct c = s /\ cs_struct c' = s').
  { destruct (casadi_structure_ok s Hw) as (c0 & E0 & H0 & _). destruct (casadi_structure_ok s' Hw') as (c1 & E1 & H1 & _). split; congruence. }
  destruct Ecs as [Ec Ec'].
  exists (tot s l1). rewrite (size_formula s' c' Hw' Hc'), <- (tot_size s' Hw'). split; [|split].
  - rewrite (size_formula s c Hw Hc), <- (tot_size s Hw), Hs, <- (tot_block s P s' Hw Hb). unfold tot. rewrite !map_app, !list_sum_app. lia.
  - intros Hne. eapply map_block; eauto. intros E. rewrite E in Hne. now apply Hne.
  - rewrite (tot_size s' Hw'), <- (size_formula s' c' Hw' Hc'). intros x w y q Hx Hl _ Hq Hf o o'. split.
    + unfold prefix_get, prefix_, so_get, o, o', plain_obj. cbn [px_obj px_prefix so_c so_env so_st]. rewrite Ec, Ec'.
      eapply access_get with (l1 := l1) (l2 := l2); eauto. discriminate.
    + intros v o2 r H. destruct (access_set s c raw P e s' c' l1 l2 Hw Hc Ha Es Hb Hc' Hs KPlain x w y [] [] [] q v Hx Hl ltac:(discriminate) Hq Hf ltac:(congruence)) as (w' & r' & Hl' & E1 & E2).
      unfold so_set, o', plain_obj in H. cbn [so_c so_env so_st] in H. rewrite Ec', E1 in H. injection H as <- <-. 
      split; [|exact Hl'].
      unfold prefix_set, prefix_, so_set, o, plain_obj. cbn [px_obj px_prefix so_c so_env so_st so_cat ps_master]. rewrite Ec. unfold num_env in *. rewrite E2. reflexivity.
Qed.

(** ** C31 *)
Lemma entry_r_init s nc :
  exists e orig, entry_init "t" [("struct"%string, VStructure s); ("repeat"%string, VInt (Z.of_nat nc))] = Ok (CEntry (T := T) e None orig) /\
    e_name e = "t"%string /\ e_dims e = [Z.of_nat nc] /\ e_struct e = Some s.
Proof. unfold entry_init. cbn. eexists. eexists. split; [reflexivity|]. cbn. auto. Qed.

Definition at_col (j : nat) : cidx := [KS "t"; KI (Z.of_nat j)].
Lemma r_leaves e s nc : e_name e = "t"%string -> e_dims e = [Z.of_nat nc] -> e_struct e = Some s ->
  leaves (mkStruct [e] [OName "t"]) = flat_map (fun j => map (app (at_col j)) (leaves s)) (seq 0 nc).
Proof.
  intros En Ed Es. rewrite leaves_eq. unfold order_indices. cbn [map flat_map pydict fold_left dict_set fst snd dict_get]. rewrite En. cbn [String.eqb Ascii.eqb Bool.eqb].
  rewrite app_nil_r. cbn [fst snd]. rewrite Ed, entry_indices_eq. unfold ch. rewrite Es.
  rewrite listindices_cons. cbn [listindices map]. unfold pyrange. rewrite Nat2Z.id.
  generalize (seq 0 nc). induction l as [|j l IH]; [reflexivity|]. cbn [map flat_map app]. rewrite IH. reflexivity.
Qed.

Lemma r_split (s : structure) nc j : j < nc ->
  flat_map (fun j => map (app (at_col j)) (leaves s)) (seq 0 nc) =
  flat_map (fun j => map (app (at_col j)) (leaves s)) (seq 0 j) ++ map (app (at_col j)) (leaves s) ++
  flat_map (fun j => map (app (at_col j)) (leaves s)) (seq (S j) (nc - S j)).
Proof.
  intros Hj. replace nc with (j + S (nc - S j)) at 1 by lia. rewrite seq_app. cbn [plus seq]. rewrite flat_map_app. reflexivity.
Qed.

(** A repeated view of the matrix whose elements are [v]. *)
Record RView (s : structure) (c : cstruct) (nc : nat) (ct : cstruct) (et : entry) (vw : view) (v : list T) : Prop := {
  rv_eq : vw = View (SObj ct (Env (cs_map ct) [] KRep []) (PState v v [])) [PStr "t"];
  rv_struct : cs_struct ct = mkStruct [et] [OName "t"];
  rv_name : e_name et = "t"%string;
  rv_dims : e_dims et = [Z.of_nat nc];
  rv_sub : e_struct et = Some s;
  rv_wf : Wf (cs_struct ct);
  rv_built : casadi_structure (cs_struct ct) = Ok ct;
  rv_len : length v = nc * cs_size c
}.

Lemma r_block ct et s nc j : cs_struct ct = mkStruct [et] [OName "t"] -> e_name et = "t"%string -> e_dims et = [Z.of_nat nc] -> e_struct et = Some s ->
  j < nc -> Block (cs_struct ct) (at_col j) s.
Proof.
  intros E En Ed Es Hj. rewrite E. unfold at_col. pose proof (Block_here (mkStruct [et] [OName "t"]) et [Z.of_nat j] s) as H. rewrite En in H. apply H.
  - left. reflexivity.
  - exact Es.
  - rewrite Ed. repeat constructor; lia.
Qed.
Lemma r_tot ct et s c nc j : cs_struct ct = mkStruct [et] [OName "t"] -> e_name et = "t"%string -> e_dims et = [Z.of_nat nc] -> e_struct et = Some s ->
  Wf (cs_struct ct) -> casadi_structure s = Ok c ->
  j <= nc -> tot (cs_struct ct) (flat_map (fun j => map (app (at_col j)) (leaves s)) (seq 0 j)) = j * cs_size c.
Proof.
  intros E En Ed Es Hw Hc Hj. assert (Hws : Wf s). { eapply (Wf_sub (cs_struct ct) et); eauto. rewrite E. left. reflexivity. }
  induction j as [|j IH]; [reflexivity|]. rewrite seq_S, flat_map_app. cbn [flat_map plus]. rewrite app_nil_r, tot_app, IH by lia.
  rewrite tot_block; [|exact Hw|eapply r_block; eauto; lia]. rewrite (tot_size s Hws), <- (size_formula s c Hws Hc). lia.
Qed.

Theorem repeated_ok s c (a : dm T) : Wf s -> casadi_structure s = Ok c -> DmOk a -> dm_nr a = cs_size c -> sp_is_dense (dm_sp a) = true ->
  exists vw ct et, repeated_ s c a = Ok vw /\ RView s c (dm_nc a) ct et vw (dm_nz a).
Proof.
  intros Hw Hc Ha Hr Hd. unfold repeated_. rewrite Hr, Nat.eqb_refl. cbn [negb].
  destruct (entry_r_init s (dm_nc a)) as (e & orig & He & En & Ed & Es).
  set (kw := [("struct"%string, VStructure s); ("repeat"%string, VInt (Z.of_nat (dm_nc a)))]) in *.
  assert (Hk : NoDup (map fst kw)) by (repeat constructor; simpl; intuition discriminate).
  assert (Hv : forall k v, given kw k v -> ValOk (T := T) v) by (intros k v [[= <- <-]|[[= <- <-]|[]]]; simpl; auto).
  destruct (t_struct_ok kw _ Hk Hv He) as (ct & Et). rewrite Et. cbn [rbind].
  destruct (t_struct_built kw _ ct Hk Hv He Et) as (Hwt & Hct & Hent & Hord). cbn [ce_entry ce_name] in *.
  assert (Est : cs_struct ct = mkStruct [e] [OName "t"]).
  { destruct (cs_struct ct) as [es od]. simpl in *. subst. unfold ce_name. cbn. rewrite En. reflexivity. }
  unfold dense_elems. rewrite Hd. cbn [rbind]. unfold ref_struct.
  assert (Hsz : cs_size ct = dm_nc a * cs_size c).
  { rewrite (size_formula _ _ Hwt Hct), <- (tot_size _ Hwt). rewrite Est at 2. rewrite (r_leaves e s (dm_nc a) En Ed Es).
    apply (r_tot ct e s c (dm_nc a)); auto. }
  rewrite Hsz, Nat.eqb_refl. cbn [negb rbind]. eexists. exists ct, e. split; [reflexivity|].
  constructor; auto. destruct Ha as [Hsp Hlen]. rewrite Hlen, <- Hr, Nat.mul_comm. unfold sp_is_dense, sp_nnz, dm_nr, dm_nc in *.
  apply Nat.eqb_eq in Hd. exact Hd.
Qed.

Definition column (n j : nat) (v : list T) : list T := firstn n (skipn (j * n) v).
Definition put_column (n j : nat) (v w : list T) : list T := firstn (j * n) v ++ w ++ skipn (j * n + n) v.
Lemma column_split n j nc (v : list T) : length v = nc * n -> j < nc ->
  v = firstn (j * n) v ++ column n j v ++ skipn (j * n + n) v /\ length (firstn (j * n) v) = j * n /\ length (column n j v) = n.
Proof.
  intros Hl Hj. assert (j * n + n <= nc * n) by nia. unfold column. split; [|split].
  - assert (E : skipn (j * n + n) v = skipn n (skipn (j * n) v)).
    { clear. revert v. induction (j * n) as [|k IH]; intros v; [reflexivity|]. destruct v as [|a v]; [now rewrite !skipn_nil|]. simpl. apply IH. }
    rewrite E, firstn_skipn, firstn_skipn. reflexivity.
  - rewrite firstn_length. lia.
  - rewrite firstn_length, skipn_length. lia.
Qed.

(** Assignments [R[z, ...] = p] one after the other, whatever they return. *)
Inductive RWrites (nc : nat) : view -> view -> Prop :=
| RWrites_none : forall vw, RWrites nc vw vw
| RWrites_more : forall vw vw' vw'' z q p r, (- Z.of_nat nc <= z < Z.of_nat nc)%Z -> q <> [] -> no_fun q -> PayFull p ->
    view_set zero vw (PInt z :: q) p = (vw', r) -> RWrites nc vw' vw'' -> RWrites nc vw vw''.

Lemma r_access s c nc ct et vw v z q : Wf s -> casadi_structure s = Ok c -> RView s c nc ct et vw v ->
  (- Z.of_nat nc <= z < Z.of_nat nc)%Z -> q <> [] -> no_fun q ->
  let j := Z.to_nat (from_end (Z.of_nat nc) z) in
  view_get zero vw (PInt z :: q) = so_get zero (plain_obj c (column (cs_size c) j v)) q /\
  forall p, PayFull p -> exists o' vw' r, so_set zero (plain_obj c (column (cs_size c) j v)) q p = (o', r) /\
    view_set zero vw (PInt z :: q) p = (vw', r) /\ length (so_cat o') = cs_size c /\
    RView s c nc ct et vw' (put_column (cs_size c) j v (so_cat o')).
Proof.
  intros Hw Hc [Eq Est En Ed Es Hwt Hct Hlen] Hz Hq Hf j.
  assert (Hj : j < nc /\ from_end (Z.of_nat nc) z = Z.of_nat j) by (unfold j, from_end; destruct (Z.ltb_spec z 0); lia). destruct Hj as [Hj Ej].
  assert (Ec : cs_struct c = s). { destruct (casadi_structure_ok s Hw) as (c0 & E0 & H0 & _). congruence. }
  assert (Ha : Addr (cs_struct ct) [KS "t"; KI z] (at_col j) et).
  { rewrite Est. pose proof (Addr_here (mkStruct [et] [OName "t"]) et [z]) as H. rewrite En, Ed in H. unfold from_ends in H. cbn in H. rewrite Ej in H. apply H; [now left|reflexivity]. }
  pose proof (r_block ct et s nc j Est En Ed Es Hj) as Hb.
  assert (Hs : leaves (cs_struct ct) = flat_map (fun j => map (app (at_col j)) (leaves s)) (seq 0 j) ++ map (app (at_col j)) (leaves s) ++
     flat_map (fun j => map (app (at_col j)) (leaves s)) (seq (S j) (nc - S j))).
  { rewrite Est, (r_leaves et s nc En Ed Es). now apply r_split. }
  destruct (column_split (cs_size c) j nc v Hlen Hj) as (Ev & Hl1 & Hl2).
  assert (Hx : length (firstn (j * cs_size c) v) = tot (cs_struct ct) (flat_map (fun j => map (app (at_col j)) (leaves s)) (seq 0 j))).
  { rewrite Hl1. symmetry. apply (r_tot ct et s c nc); auto. lia. }
  split.
  - rewrite Eq. unfold view_get, so_get, plain_obj. cbn [vw_obj vw_prefix so_c so_env so_st]. rewrite Ec. rewrite Ev at 1 2.
    apply (access_get (cs_struct ct) ct [KS "t"; KI z] (at_col j) et s c _ _ Hwt Hct Ha Es Hb Hc Hs); auto.
  - intros p Hp.
    destruct (access_set (cs_struct ct) ct [KS "t"; KI z] (at_col j) et s c _ _ Hwt Hct Ha Es Hb Hc Hs KRep
      (firstn (j * cs_size c) v) (column (cs_size c) j v) (skipn (j * cs_size c + cs_size c) v) v [] [] q p Hx Hl2 (fun _ => Ev) Hq Hf (fun _ => Hp)) as (w' & r & Hl' & E1 & E2).
    exists (plain_obj c w'). eexists. exists r. unfold so_set, plain_obj. cbn [so_c so_env so_st]. rewrite Ec, E1. split; [reflexivity|].
    rewrite Eq. unfold view_set, so_set. cbn [vw_obj vw_prefix so_c so_env so_st].
    rewrite <- Ev in E2. cbn [pidx map pck app] in E2. change ([PStr "t"] ++ PInt z :: q) with (PStr "t" :: PInt z :: q). rewrite E2. split; [reflexivity|].
    split; [exact Hl'|]. constructor; auto. unfold put_column. cbn [so_cat so_st ps_master]. rewrite !app_length, Hl', Hl1, skipn_length, Hlen. nia.
Qed.

Lemma r_writes s c nc ct et vw0 vw : Wf s -> casadi_structure s = Ok c -> RWrites nc vw0 vw -> forall v0, RView s c nc ct et vw0 v0 -> exists v, RView s c nc ct et vw v.
Proof.
  intros Hw Hc H. induction H as [vw|vw vw1 vw2 z q p r Hz Hq Hf Hp E H IH]; intros v0 Hv; [eauto|].
  destruct (r_access s c nc ct et vw v0 z q Hw Hc Hv Hz Hq Hf) as (_ & G). destruct (G p Hp) as (o' & vw' & r' & _ & E' & _ & Hv'). rewrite E in E'. injection E' as <- _.
  eapply IH; eauto.
Qed.

Theorem repeated_columns s c (a : dm T) : Wf s -> casadi_structure s = Ok c -> DmOk a -> dm_nr a = cs_size c -> sp_is_dense (dm_sp a) = true ->
  exists vw0, repeated_ s c a = Ok vw0 /\ view_matrix vw0 = dm_nz a /\
  forall vw, RWrites (dm_nc a) vw0 vw ->
    so_cat (vw_obj vw) = view_matrix vw /\ length (view_matrix vw) = dm_nc a * cs_size c /\
    forall z q, (- Z.of_nat (dm_nc a) <= z < Z.of_nat (dm_nc a))%Z -> q <> [] -> no_fun q ->
      let j := Z.to_nat (from_end (Z.of_nat (dm_nc a)) z) in
      view_get zero vw (PInt z :: q) = so_get zero (plain_obj c (column (cs_size c) j (view_matrix vw))) q /\
      forall p vw' r, PayFull p -> view_set zero vw (PInt z :: q) p = (vw', r) ->
        exists o', so_set zero (plain_obj c (column (cs_size c) j (view_matrix vw))) q p = (o', r) /\
          length (so_cat o') = cs_size c /\ view_matrix vw' = put_column (cs_size c) j (view_matrix vw) (so_cat o') /\ so_cat (vw_obj vw') = view_matrix vw'.
Proof.
  intros Hw Hc Ha Hr Hd. destruct (repeated_ok s c a Hw Hc Ha Hr Hd) as (vw0 & ct & et & E0 & Hv0). exists vw0. split; [exact E0|].
  assert (Em : forall vw v, RView s c (dm_nc a) ct et vw v -> view_matrix vw = v /\ so_cat (vw_obj vw) = v) by (intros vw v Hv; rewrite (rv_eq _ _ _ _ _ _ _ Hv); split; reflexivity).
  split; [apply Em; exact Hv0|]. intros vw Hwr. destruct (r_writes s c (dm_nc a) ct et vw0 vw Hw Hc Hwr _ Hv0) as (v & Hv).
  destruct (Em vw v Hv) as [E1 E2]. rewrite E1. split; [exact E2|]. split; [exact (rv_len _ _ _ _ _ _ _ Hv)|]. intros z q Hz Hq Hf j.
  destruct (r_access s c (dm_nc a) ct et vw v z q Hw Hc Hv Hz Hq Hf) as (G1 & G2). split; [exact G1|]. intros p vw' r Hp Hset.
  destruct (G2 p Hp) as (o' & vw1 & r1 & A & B & C & D). rewrite Hset in B. injection B as <- <-. exists o'. destruct (Em _ _ D) as [E3 E4].
  split; [exact A|]. split; [exact C|]. split; [exact E3|congruence].
Qed.

(** A matrix with another number of rows is refused. *)
Theorem repeated_bad_rows s c (a : dm T) : dm_nr a <> cs_size c -> repeated_ s c a = Err EException.
Proof. intros H. unfold repeated_. apply Nat.eqb_neq in H. rewrite H. reflexivity. Qed.
End P.
