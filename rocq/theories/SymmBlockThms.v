(** Blocks of symmetric entries: [s[ci, a, b] = m], [s[ci, a, b]], [s[ci, a] = m] (C87). *)
From Verif Require Import PyBase IndexModel DMModel StructModel StructSpec PowerModel PowerSpec
  IndexProofs StructProofs LayoutProofs LayoutThms LayoutExamples DMProofs PowerProofs PowerThms SliceProofs PowerThms2 PowerThms3 PowerThms4 PowerThms5.

Open Scope nat_scope.

(** The pattern of the rows [A] and columns [B] of [orig]. *)
Definition BlockPattern (sp orig : spy) (A B : list nat) : Prop :=
  sp_nr sp = length A /\ sp_nc sp = length B /\
  forall x y, In (x, y) (sp_pat sp) <-> exists r c, nth_error A x = Some r /\ nth_error B y = Some c /\ In (r, c) (sp_pat orig).

Section P.
Context {T : Type} (zero : T).
Notation rval := (rval T).
Notation pel := (pel T).
Notation pay := (pay T).
Notation env := (env T).
Notation einfo := (einfo T).
Notation pstate := (pstate T).

Lemma sub_at {X} (d : dm X) A B x y :
  dm_at (dm_sub d A B) (x, y) = match nth_error A x, nth_error B y with Some r, Some c => dm_at d (r, c) | _, _ => None end.
Proof.
  unfold dm_sub. rewrite dm_build_at. simpl fst. simpl snd.
  destruct (nth_error A x) as [r|] eqn:EA.
  - assert (Hx : x <? length A = true) by (apply Nat.ltb_lt, nth_error_Some; congruence). rewrite Hx, (nth_error_nth _ _ 0 EA).
    destruct (nth_error B y) as [c|] eqn:EB.
    + assert (Hy : y <? length B = true) by (apply Nat.ltb_lt, nth_error_Some; congruence). now rewrite Hy, (nth_error_nth _ _ 0 EB).
    + apply nth_error_None in EB. apply Nat.ltb_ge in EB. now rewrite EB.
  - apply nth_error_None in EA. apply Nat.ltb_ge in EA. now rewrite EA.
Qed.
Lemma sub_at_inv {X} (d : dm X) A B p k : dm_at (dm_sub d A B) p = Some k ->
  exists r c, nth_error A (fst p) = Some r /\ nth_error B (snd p) = Some c /\ dm_at d (r, c) = Some k.
Proof.
  destruct p as [x y]. rewrite sub_at. simpl. destruct (nth_error A x) as [r|]; [|discriminate]. destruct (nth_error B y) as [c|]; [|discriminate].
  intros E. exists r, c. auto.
Qed.
Lemma nz_at {X} (d : dm X) k : DmOk d -> In k (dm_nz d) -> exists p, dm_at d p = Some k.
Proof.
  intros Hd Hk. apply In_nth_error in Hk as (i & Hi). destruct (nth_error (sp_pat (dm_sp d)) i) as [p|] eqn:E.
  - exists p. now rewrite (dm_at_nth d i p Hd E).
  - exfalso. apply nth_error_None in E. destruct Hd as [_ Hl]. unfold sp_nnz in Hl. rewrite <- Hl in E. apply nth_error_None in E. congruence.
Qed.

Lemma nth_error_inj {X} (l : list X) a b x : NoDup l -> nth_error l a = Some x -> nth_error l b = Some x -> a = b.
Proof. intros H Ea Eb. apply (NoDup_nth_error l); [exact H| |congruence]. apply nth_error_Some. congruence. Qed.

Lemma sub_nodup (m : dm nat) A B : DmOk m -> NoDup (dm_nz m) -> NoDup A -> NoDup B -> NoDup (dm_nz (dm_sub m A B)).
Proof.
  intros Hm Hnd HA HB. pose proof (dm_build_ok (length A) (length B) (fun p => dm_at m (nth (fst p) A 0, nth (snd p) B 0))) as Hok.
  fold (dm_sub m A B) in Hok. apply NoDup_nth_error. intros i j Hi E.
  destruct Hok as [Hs Hl]. unfold sp_nnz in Hl.
  destruct (nth_error (sp_pat (dm_sp (dm_sub m A B))) i) as [p|] eqn:Ei; [|apply nth_error_None in Ei; lia].
  destruct (nth_error (dm_nz (dm_sub m A B)) i) as [k|] eqn:Ek; [|apply nth_error_None in Ek; lia].
  assert (Hj : j < length (dm_nz (dm_sub m A B))) by (apply nth_error_Some; congruence).
  destruct (nth_error (sp_pat (dm_sp (dm_sub m A B))) j) as [q|] eqn:Ej; [|apply nth_error_None in Ej; lia].
  pose proof (dm_at_nth _ i p (conj Hs Hl) Ei) as Hp. pose proof (dm_at_nth _ j q (conj Hs Hl) Ej) as Hq. rewrite Ek in Hp. rewrite <- E in Hq.
  apply sub_at_inv in Hp as (r & c & H1 & H2 & H3), Hq as (r' & c' & H1' & H2' & H3').
  pose proof (nz_inj m _ _ _ Hm Hnd H3 H3') as [= <- <-].
  pose proof (nth_error_inj A _ _ _ HA H1 H1') as F1. pose proof (nth_error_inj B _ _ _ HB H2 H2') as F2.
  assert (p = q) by (destruct p, q; simpl in *; congruence). subst q.
  exact (nth_error_inj _ _ _ _ (SpOk_NoDup _ Hs) Ei Ej).
Qed.

Lemma sub_inb (v : list T) m A B : inb v m -> inb v (dm_sub m A B).
Proof. unfold inb. rewrite !Forall_forall. intros H k Hk. apply H. eapply dm_sub_nz; eauto. Qed.

(** One projected write to a block. *)
Lemma set_sub (v : list T) m A B P : DmOk m -> NoDup (dm_nz m) -> inb v m -> NoDup A -> NoDup B -> DmOk P -> dm_is_scalar P = false ->
  dm_nr P = length A -> dm_nc P = length B ->
  exists v', vec_set zero v (dm_sub m A B) (dm_project zero P (dm_sp (dm_sub m A B))) = Ok v' /\ length v' = length v /\
    (forall x y r c k, nth_error A x = Some r -> nth_error B y = Some c -> dm_at m (r, c) = Some k -> nth k v' zero = dm_val zero P (x, y)) /\
    (forall r c k, ~ (In r A /\ In c B) -> dm_at m (r, c) = Some k -> nth k v' zero = nth k v zero) /\
    (forall k, ~ In k (dm_nz m) -> nth_error v' k = nth_error v k).
Proof.
  intros Hm Hnd Hb HA HB HP Hs Hr Hc. set (i := dm_sub m A B). set (Q := dm_project zero P (dm_sp i)).
  assert (Hi : DmOk i) by apply dm_build_ok. assert (Hii : inb v i) by (now apply sub_inb).
  assert (Hni : NoDup (dm_nz i)) by (now apply sub_nodup).
  assert (HQ : DmOk Q) by (split; [apply Hi|simpl; now rewrite map_length]).
  assert (Hnr : dm_nr i = length A) by reflexivity. assert (Hnc : dm_nc i = length B) by reflexivity.
  destruct (vec_set_ok zero v i Q Hi HQ Hii) as [[_ E]|[Hf _]]; [|exfalso; apply Hf; right; left; reflexivity].
  rewrite E. eexists. split; [reflexivity|]. split; [apply vec_set_list_length|]. split; [|split].
  - intros x y r c k H1 H2 H3. assert (Hp : dm_at i (x, y) = Some k) by (unfold i; now rewrite sub_at, H1, H2).
    rewrite (set_at zero v i _ _ _ Hi Hni Hii Hp). unfold fit.
    assert (Es : dm_is_scalar Q = false).
    { unfold dm_is_scalar in *. change (dm_nr Q) with (dm_nr i). change (dm_nc Q) with (dm_nc i). rewrite Hnr, Hnc, <- Hr, <- Hc. exact Hs. }
    rewrite Es. change (sp_nr (dm_sp i)) with (dm_nr Q). change (sp_nc (dm_sp i)) with (dm_nc Q). rewrite !Nat.eqb_refl. simpl.
    unfold dm_val at 1, dm_at, Q, dm_project. cbn [dm_sp dm_nz]. rewrite pos_assoc_fun. pose proof (dm_at_In _ _ _ Hp) as Ip. apply pos_mem_In in Ip. rewrite Ip. reflexivity.
  - intros r c k Hn Hk. apply set_other. intros Hin. apply (nz_at i k Hi) in Hin as (p & Hp). apply sub_at_inv in Hp as (r' & c' & H1 & H2 & H3).
    pose proof (nz_inj m _ _ _ Hm Hnd Hk H3) as [= <- <-]. apply Hn. split; eapply nth_error_In; eauto.
  - intros k Hk. apply vec_set_list_other. intros Hin. apply Hk. eapply dm_sub_nz; eauto.
Qed.

Lemma set_const (x : T) ks : forall (v : list T) xs k, length xs = length ks -> Forall (eq x) xs -> Forall (fun k => k < length v) ks -> In k ks ->
  nth k (vec_set_list v ks xs) zero = x.
Proof.
  induction ks as [|k0 ks IH]; intros v xs k Hl Hx Hb Hk; [destruct Hk|]. destruct xs as [|x0 xs]; [discriminate|].
  apply Forall_cons_iff in Hx as [<- Hx]. apply Forall_cons_iff in Hb as [Hb0 Hb]. simpl. simpl in Hl.
  destruct (in_dec Nat.eq_dec k ks) as [Hi|Hi].
  - apply IH; auto. now rewrite set_nth_length.
  - destruct Hk as [->|Hk]; [|contradiction]. rewrite set_other by exact Hi. now apply nth_set_nth_eq.
Qed.

(** A scalar written to some elements of an index. *)
Lemma set_scalar (v : list T) i P : DmOk i -> inb v i -> DmOk P -> dm_is_scalar P = true ->
  exists v', vec_set zero v i P = Ok v' /\ length v' = length v /\
    (forall k, In k (dm_nz i) -> nth k v' zero = dm_val zero P (0, 0)) /\
    (forall k, ~ In k (dm_nz i) -> nth k v' zero = nth k v zero /\ nth_error v' k = nth_error v k).
Proof.
  intros Hi Hb HP Hs.
  destruct (vec_set_ok zero v i P Hi HP Hb) as [[_ E]|[Hf _]].
  2: { exfalso. apply Hf. left. unfold dm_is_scalar in Hs. apply andb_true_iff in Hs as [H1 H2]. apply Nat.eqb_eq in H1, H2. unfold dm_shape. congruence. }
  rewrite E. eexists. split; [reflexivity|]. split; [apply vec_set_list_length|]. split.
  - intros k Hk. apply set_const; auto.
    + rewrite map_length. destruct Hi as [_ Hl]. unfold sp_nnz in Hl. auto.
    + apply Forall_forall. intros y Hy. apply in_map_iff in Hy as (p & <- & _). unfold fit. now rewrite Hs.
  - intros k Hk. split; [now apply set_other|now apply vec_set_list_other].
Qed.

Lemma pei2f ei m a b sa sb : sel_of a = Some sa -> sel_of b = Some sb ->
  @performExtraIndex T ei true (RIdx m) [a; b] = rmap (@RIdx T) (dm_get2 m sb sa).
Proof.
  intros Ha Hb. pose proof (delegation_sel ei 0 a sa Ha) as Ea. pose proof (delegation_sel ei 1 b sb Hb) as Eb.
  assert (K : performExtraIndex ei true (RIdx m) [a; b] = let* a' := delegation ei 0 a in let* b' := delegation ei 1 b in getitem2 (RIdx m) b' a').
  { destruct a; try discriminate; reflexivity. }
  rewrite K, Ea. cbn [rbind]. rewrite Eb. reflexivity.
Qed.
Lemma pei1f ei m a sa : sel_of a = Some sa -> @performExtraIndex T ei true (RIdx m) [a] = rmap (@RIdx T) (dm_get1 m sa).
Proof.
  intros Ha. pose proof (delegation_sel ei 0 a sa Ha) as Ea.
  assert (K : performExtraIndex ei true (RIdx m) [a] = let* a' := delegation ei 0 a in getitem1 (RIdx m) a').
  { destruct a; try discriminate; reflexivity. }
  rewrite K, Ea. reflexivity.
Qed.

Lemma block_pattern_sub sp orig A B : SpOk sp -> SpOk orig ->
  (BlockPattern sp orig A B <-> sp = dm_sp (dm_sub (DM orig (map (fun _ => 1) (sp_pat orig))) A B)).
Proof.
  intros Hsp Ho. set (o := DM orig (map (fun _ => 1) (sp_pat orig))).
  assert (Hoo : DmOk o) by (split; [exact Ho|simpl; now rewrite map_length]).
  assert (Hin : forall x y, In (x, y) (sp_pat (dm_sp (dm_sub o A B))) <-> exists r c, nth_error A x = Some r /\ nth_error B y = Some c /\ In (r, c) (sp_pat orig)).
  { intros x y. split.
    - intros H. destruct (dm_at_Some (dm_sub o A B) (x, y) (dm_build_ok _ _ _) H) as (k & Hk).
      apply sub_at_inv in Hk as (r & c & H1 & H2 & H3). exists r, c. split; [exact H1|]. split; [exact H2|]. exact (dm_at_In _ _ _ H3).
    - intros (r & c & H1 & H2 & H3). destruct (dm_at_Some o (r, c) Hoo H3) as (k & Hk).
      apply (dm_at_In _ _ k). now rewrite sub_at, H1, H2. }
  split.
  - intros (Hr & Hc & Hp). pose proof (dm_build_ok (length A) (length B) (fun p => dm_at o (nth (fst p) A 0, nth (snd p) B 0))) as Hok.
    fold (dm_sub o A B) in Hok. 
    assert (E : sp_pat sp = sp_pat (dm_sp (dm_sub o A B))).
    { apply sorted_ext; [apply Hsp|apply Hok|]. intros [x y]. rewrite Hp, Hin. reflexivity. }
    destruct sp as [r0 c0 p0]. cbn [sp_nr sp_nc sp_pat] in *. rewrite Hr, Hc, E. reflexivity.
  - intros ->. split; [reflexivity|]. split; [reflexivity|]. exact Hin.
Qed.

Lemma setitem_extra s c (st : pstate) ci e ex v : At s ci e -> Wf s -> e_struct e = None -> ex <> [] ->
  setitem zero s (num_env c) (pidx ci ++ ex) v st = mwrap (dispatch zero (num_env c) MSet v ([] ++ ci) (Some ex) (Some (info zero e))) st.
Proof.
  intros Ha Hw He Hne. unfold setitem. rewrite (travS_at zero s ci e Ha Hw). unfold endD, subT. rewrite He. destruct ex; [contradiction|reflexivity].
Qed.

Section Entry.
Context (s : structure) (c : cstruct) (st : pstate) (ci : cidx) (e : entry) (n : nat) (orig : spy) (v : pay) (P : dm T).
Hypothesis (Ho : Obj s c st) (Ha : At s ci e) (Hs : SymmEntry e n orig) (Hv : pay_ok v) (HM : to_mtype v = Ok P).
Context (a b : pel) (sa sb : sel) (A B : list nat).
Hypothesis (Hsa : sel_of a = Some sa) (Hsb : sel_of b = Some sb) (HA : sel_resolve sa n = Ok A) (HB : sel_resolve sb n = Ok B).

(** What the matrix reads after the write, from what is stored. *)
Lemma symm_after m (v' : list T) (W : nat -> nat -> T -> Prop) (U : nat -> nat -> Prop) R R' :
  cmap_get ci (cs_map c) = Some m -> length v' = length (ps_master st) ->
  (forall r q k, dm_at m (r, q) = Some k -> forall x, W r q x -> nth k v' zero = x) ->
  (forall r q k, dm_at m (r, q) = Some k -> U r q -> nth k v' zero = nth k (ps_master st) zero) ->
  getitem zero s (num_env c) (pidx ci) st = Ok (RMat R) ->
  getitem zero s (num_env c) (pidx ci) (with_master st v') = Ok (RMat R') ->
  (forall r q x, r <= q -> dm_at R (r, q) <> None -> W r q x -> dm_at R' (r, q) = Some x /\ dm_at R' (q, r) = Some x) /\
  (forall r q, r <= q -> U r q -> dm_at R' (r, q) = dm_at R (r, q) /\ dm_at R' (q, r) = dm_at R (q, r)).
Proof.
  intros Hm HL HW HU HR HR'. pose proof (ob_wf _ _ _ Ho) as Hw. pose proof (ob_built _ _ _ Ho) as Hc.
  destruct (sy_read zero s c ci e n orig m Hw Hc Ha Hs Hm st Ho) as (R0 & R1 & R2 & R3 & R4). rewrite HR in R1. injection R1 as <-.
  assert (Ho' : Obj s c (with_master st v')) by (apply Obj_with_master; auto).
  destruct (sy_read zero s c ci e n orig m Hw Hc Ha Hs Hm _ Ho') as (R0 & R1 & R2' & R3' & R4'). rewrite HR' in R1. injection R1 as <-.
  assert (Hsym : forall d : dm T, forall p q, mirror d (p, q) = mirror d (q, p)) by (intros; apply mirror_sym).
  assert (Hup : forall (d : dm T) r q, r <= q -> mirror d (r, q) = dm_at d (r, q)).
  { intros d r q H. unfold mirror. simpl. apply Nat.leb_le in H. now rewrite H. }
  split.
  - intros r q x Hle Hn Hx. rewrite (R4' (q, r)), (Hsym _ q r), !R4'. rewrite R4, Hup in Hn by exact Hle. rewrite Hup by exact Hle.
    unfold vals in *. rewrite dm_at_map in *. destruct (dm_at m (r, q)) as [k|] eqn:Ek; [|exfalso; now apply Hn]. simpl.
    rewrite (HW r q k Ek x Hx). auto.
  - intros r q Hle Hu. rewrite (R4' (q, r)), (R4 (q, r)), (Hsym _ q r), (Hsym _ q r), !R4', !R4, !Hup by exact Hle.
    assert (G : dm_at (vals zero (ps_master (with_master st v')) m) (r, q) = dm_at (vals zero (ps_master st) m) (r, q)).
    { unfold vals. rewrite !dm_at_map. destruct (dm_at m (r, q)) as [k|] eqn:Ek; [|reflexivity]. simpl. now rewrite (HU r q k Ek Hu). }
    auto.
Qed.

Lemma symm_block_write_sec : dm_is_scalar P = false -> NoDup A -> NoDup B -> BlockPattern (dm_sp P) orig A B ->
  exists st' r R R', setitem zero s (num_env c) (pidx ci ++ [a; b]) v st = (st', Ok r) /\
    getitem zero s (num_env c) (pidx ci) st = Ok (RMat R) /\
    getitem zero s (num_env c) (pidx ci) st' = Ok (RMat R') /\
    (forall p q, dm_at R' (p, q) = dm_at R' (q, p)) /\
    (forall x y p q, nth_error A x = Some p -> nth_error B y = Some q -> dm_at R (p, q) <> None ->
       p <= q \/ ~ (In q A /\ In p B) -> dm_at R' (p, q) = Some (dm_val zero P (x, y))) /\
    (forall p q, ~ (In p A /\ In q B) -> ~ (In q A /\ In p B) -> dm_at R' (p, q) = dm_at R (p, q)) /\
    (forall ii, i_get zero s (pidx ci) = Ok ii -> unchanged (positions ii) st st').
Proof.
  intros Hns HdA HdB HBP. pose proof (ob_wf _ _ _ Ho) as Hw. pose proof (ob_built _ _ _ Ho) as Hc.
  destruct (map_get_leaf s c ci e Hw Hc (At_Leaf _ _ _ Ha (se_prim _ _ _ Hs))) as (m & Hm & _).
  destruct (sy_ok s c ci m Hw Hc Hm) as (Hok & Hnd & Hb). pose proof (to_mtype_ok v P Hv HM) as HPok.
  pose proof (sy_inb s c ci m Hw Hc Hm st Ho) as Hib.
  pose proof (sy_nr s c ci e n orig m Hw Hc Ha Hs Hm) as Hnr. pose proof (sy_nc s c ci e n orig m Hw Hc Ha Hs Hm) as Hnc.
  assert (Hsp : dm_sp P = dm_sp (dm_sub (DM orig (map (fun _ => 1) (sp_pat orig))) A B)).
  { apply block_pattern_sub; [apply HPok|apply Hs|exact HBP]. }
  destruct HBP as (Hr & Hq & _). fold (dm_nr P) in Hr. fold (dm_nc P) in Hq.
  assert (HPT : DmOk (dm_T P)) by apply dm_build_ok.
  assert (HTs : dm_is_scalar (dm_T P) = false).
  { unfold dm_is_scalar in *. change (dm_nr (dm_T P)) with (dm_nc P). change (dm_nc (dm_T P)) with (dm_nr P). now rewrite andb_comm. }
  destruct (set_sub (ps_master st) m B A (dm_T P) Hok Hnd Hib HdB HdA HPT HTs Hq Hr) as (v1 & E1 & L1 & W1 & U1 & N1).
  assert (Hib1 : inb v1 m) by (unfold inb; now rewrite L1).
  destruct (set_sub v1 m A B P Hok Hnd Hib1 HdA HdB HPok Hns Hr Hq) as (v2 & E2 & L2 & W2 & U2 & N2).
  assert (Hset : setitem zero s (num_env c) (pidx ci ++ [a; b]) v st = (with_master st v2, Ok RNone)).
  { rewrite (setitem_extra s c st ci e [a; b] v Ha Hw (se_prim _ _ _ Hs)) by discriminate.
    cbn [dispatch app]. unfold mwrap, setter, mbind, mlift. rewrite HM. cbn [num_env en_map extra]. rewrite Hm.
    rewrite (pei2 _ _ a b sa sb Hsa Hsb), (pei2f _ _ a b sa sb Hsa Hsb). unfold dm_get2. rewrite Hnr, Hnc, HA, HB. cbn [rbind rmap].
    cbn [is_symm info ei_symm ei_orig]. rewrite (se_symm _ _ _ Hs). rewrite Hns, (se_orig _ _ _ Hs).
    cbv beta iota. rewrite (pei2 _ _ a b sa sb Hsa Hsb). unfold dm_get2.
    change (dm_nr (DM orig (map (fun _ => 1) (sp_pat orig)))) with (sp_nr orig). change (dm_nc (DM orig (map (fun _ => 1) (sp_pat orig)))) with (sp_nc orig).
    rewrite (se_rows _ _ _ Hs), (se_cols _ _ _ Hs), HA, HB. cbn [rbind rmap]. rewrite <- Hsp, spy_eqb_refl.
    unfold dm_get_sp. change (dm_nr (dm_T P)) with (dm_nc P). change (dm_nc (dm_T P)) with (dm_nr P).
    change (sp_nr (dm_sp (dm_sub m B A))) with (length B). change (sp_nc (dm_sp (dm_sub m B A))) with (length A).
    change (sp_nr (dm_sp (dm_sub m A B))) with (length A). change (sp_nc (dm_sp (dm_sub m A B))) with (length B).
    rewrite Hr, Hq, !Nat.eqb_refl. cbn [andb]. unfold master_set. cbn [en_kind num_env]. rewrite E1. cbn [ps_master ps_mirror ps_storage].
    rewrite E2. reflexivity. }
  assert (Ho' : Obj s c (with_master st v2)) by (apply Obj_with_master; [exact Ho|congruence]).
  destruct (sy_read zero s c ci e n orig m Hw Hc Ha Hs Hm st Ho) as (R & R1 & R2 & R3 & R4).
  destruct (sy_read zero s c ci e n orig m Hw Hc Ha Hs Hm _ Ho') as (R' & R1' & R2' & R3' & R4').
  assert (Hsy : forall p q, dm_at R' (p, q) = dm_at R' (q, p)) by (intros p q; rewrite !R4'; apply mirror_sym).
  assert (Hsy0 : forall p q, dm_at R (p, q) = dm_at R (q, p)) by (intros p q; rewrite !R4; apply mirror_sym).
  destruct (symm_after m v2
    (fun r q x => (exists i j, nth_error A i = Some r /\ nth_error B j = Some q /\ x = dm_val zero P (i, j)) \/
                  (~ (In r A /\ In q B) /\ exists i j, nth_error A i = Some q /\ nth_error B j = Some r /\ x = dm_val zero P (i, j)))
    (fun r q => ~ (In r A /\ In q B) /\ ~ (In q A /\ In r B)) R R' Hm) as (K1 & K2); auto.
  { congruence. }
  { intros r q k Hk x [(i & j & H1 & H2 & ->)|(Hn & i & j & H1 & H2 & ->)].
    - exact (W2 _ _ _ _ _ H1 H2 Hk).
    - rewrite (U2 r q k Hn Hk). rewrite (W1 _ _ _ _ _ H2 H1 Hk). unfold dm_val. now rewrite (dm_T_at P _ HPok). }
  { intros r q k Hk [Hn1 Hn2]. rewrite (U2 r q k Hn1 Hk). apply (U1 r q k); [|exact Hk]. intros [H1 H2]. apply Hn2. auto. }
  exists (with_master st v2), RNone, R, R'. split; [exact Hset|]. split; [exact R1|]. split; [exact R1'|]. split; [exact Hsy|]. split; [|split].
  - intros x y p q H1 H2 Hn Hor. destruct (Nat.le_ge_cases p q) as [Hle|Hge].
    + apply (K1 p q); auto. left. exists x, y. auto.
    + destruct (Nat.eq_dec p q) as [->|Hne].
      * apply (K1 q q); auto. left. exists x, y. auto.
      * destruct Hor as [Hor|Hor]; [lia|]. apply (K1 q p); auto. 
        -- now rewrite Hsy0.
        -- right. split; [exact Hor|]. exists x, y. auto.
  - intros p q Hn1 Hn2. destruct (Nat.le_ge_cases p q) as [Hle|Hge]; [apply (K2 p q); auto|apply (K2 q p); auto].
  - intros ii Hii. rewrite (i_get_at zero s c ci e Hw Hc Ha), Hm in Hii. injection Hii as <-. split; [simpl; congruence|].
    simpl. intros k Hk. rewrite (N2 k Hk). now apply N1.
Qed.

(** A scalar fills the block and its mirror image. *)
Lemma symm_block_fill_sec : dm_is_scalar P = true ->
  exists st' r R R', setitem zero s (num_env c) (pidx ci ++ [a; b]) v st = (st', Ok r) /\
    getitem zero s (num_env c) (pidx ci) st = Ok (RMat R) /\
    getitem zero s (num_env c) (pidx ci) st' = Ok (RMat R') /\
    (forall p q, (In p A /\ In q B) \/ (In q A /\ In p B) -> dm_at R (p, q) <> None -> dm_at R' (p, q) = Some (dm_val zero P (0, 0))) /\
    (forall p q, ~ (In p A /\ In q B) -> ~ (In q A /\ In p B) -> dm_at R' (p, q) = dm_at R (p, q)) /\
    (forall ii, i_get zero s (pidx ci) = Ok ii -> unchanged (positions ii) st st').
Proof.
  intros Hns. pose proof (ob_wf _ _ _ Ho) as Hw. pose proof (ob_built _ _ _ Ho) as Hc.
  destruct (map_get_leaf s c ci e Hw Hc (At_Leaf _ _ _ Ha (se_prim _ _ _ Hs))) as (m & Hm & _).
  destruct (sy_ok s c ci m Hw Hc Hm) as (Hok & Hnd & Hb). pose proof (to_mtype_ok v P Hv HM) as HPok.
  pose proof (sy_inb s c ci m Hw Hc Hm st Ho) as Hib.
  pose proof (sy_nr s c ci e n orig m Hw Hc Ha Hs Hm) as Hnr. pose proof (sy_nc s c ci e n orig m Hw Hc Ha Hs Hm) as Hnc.
  destruct (set_scalar (ps_master st) (dm_sub m A B) P) as (v1 & E1 & L1 & W1 & U1); auto; [apply dm_build_ok|now apply sub_inb|].
  destruct (set_scalar v1 (dm_sub m B A) P) as (v2 & E2 & L2 & W2 & U2); auto; [apply dm_build_ok|apply sub_inb; unfold inb; now rewrite L1|].
  assert (Hset : setitem zero s (num_env c) (pidx ci ++ [a; b]) v st = (with_master st v2, Ok RNone)).
  { rewrite (setitem_extra s c st ci e [a; b] v Ha Hw (se_prim _ _ _ Hs)) by discriminate.
    cbn [dispatch app]. unfold mwrap, setter, mbind, mlift. rewrite HM. cbn [num_env en_map extra]. rewrite Hm.
    rewrite (pei2 _ _ a b sa sb Hsa Hsb), (pei2f _ _ a b sa sb Hsa Hsb). unfold dm_get2. rewrite Hnr, Hnc, HA, HB. cbn [rbind rmap].
    cbn [is_symm info ei_symm ei_orig]. rewrite (se_symm _ _ _ Hs). rewrite Hns.
    unfold master_set. cbn [en_kind num_env]. rewrite E1. cbn [ps_master ps_mirror ps_storage]. rewrite E2. reflexivity. }
  assert (Ho' : Obj s c (with_master st v2)) by (apply Obj_with_master; [exact Ho|congruence]).
  destruct (sy_read zero s c ci e n orig m Hw Hc Ha Hs Hm st Ho) as (R & R1 & R2 & R3 & R4).
  destruct (sy_read zero s c ci e n orig m Hw Hc Ha Hs Hm _ Ho') as (R' & R1' & R2' & R3' & R4').
  assert (Hin : forall r q k X Y, dm_at m (r, q) = Some k -> (In k (dm_nz (dm_sub m X Y)) <-> In r X /\ In q Y)).
  { intros r q k X Y Hk. split.
    - intros Hin. apply (nz_at _ k (dm_build_ok _ _ _)) in Hin as (p & Hp). apply sub_at_inv in Hp as (r' & c' & H1 & H2 & H3).
      pose proof (nz_inj m _ _ _ Hok Hnd Hk H3) as [= <- <-]. split; eapply nth_error_In; eauto.
    - intros [H1 H2]. apply In_nth_error in H1 as (x & Hx), H2 as (y & Hy). apply (dm_at_nz _ (x, y)). now rewrite sub_at, Hx, Hy. }
  destruct (symm_after m v2
    (fun r q x => ((In r A /\ In q B) \/ (In q A /\ In r B)) /\ x = dm_val zero P (0, 0))
    (fun r q => ~ (In r A /\ In q B) /\ ~ (In q A /\ In r B)) R R' Hm) as (K1 & K2); auto.
  { congruence. }
  { intros r q k Hk x [Hor ->]. destruct (in_dec Nat.eq_dec k (dm_nz (dm_sub m B A))) as [Hi|Hi]; [now apply W2|].
    rewrite (proj1 (U2 k Hi)). apply W1. apply (Hin r q k A B Hk). destruct Hor as [Hor|Hor]; [exact Hor|].
    exfalso. apply Hi. apply (Hin r q k B A Hk). tauto. }
  { intros r q k Hk [Hn1 Hn2]. rewrite (proj1 (U2 k (fun H => Hn2 (proj2 (and_comm _ _) (proj1 (Hin r q k B A Hk) H))))).
    apply U1. intros H. apply Hn1. now apply (Hin r q k A B Hk). }
  assert (Hsy : forall p q, dm_at R' (p, q) = dm_at R' (q, p)) by (intros p q; rewrite !R4'; apply mirror_sym).
  assert (Hsy0 : forall p q, dm_at R (p, q) = dm_at R (q, p)) by (intros p q; rewrite !R4; apply mirror_sym).
  exists (with_master st v2), RNone, R, R'. split; [exact Hset|]. split; [exact R1|]. split; [exact R1'|]. split; [|split].
  - intros p q Hor Hn. destruct (Nat.le_ge_cases p q) as [Hle|Hge].
    + apply (K1 p q); auto.
    + apply (K1 q p); auto; [now rewrite Hsy0|]. tauto.
  - intros p q Hn1 Hn2. destruct (Nat.le_ge_cases p q) as [Hle|Hge]; [apply (K2 p q); auto|apply (K2 q p); auto].
  - intros ii Hii. rewrite (i_get_at zero s c ci e Hw Hc Ha), Hm in Hii. injection Hii as <-. split; [simpl; congruence|].
    simpl. intros k Hk. assert (G : forall X Y, ~ In k (dm_nz (dm_sub m X Y))) by (intros X Y H; apply Hk; eapply dm_sub_nz; eauto).
    rewrite (proj2 (U2 k (G _ _))). apply U1, G.
Qed.

(** Any other payload is refused and nothing is written. *)
Lemma symm_block_mismatch_sec : dm_is_scalar P = false -> ~ BlockPattern (dm_sp P) orig A B ->
  setitem zero s (num_env c) (pidx ci ++ [a; b]) v st = (st, Err EException).
Proof.
  intros Hns HBP. pose proof (ob_wf _ _ _ Ho) as Hw. pose proof (ob_built _ _ _ Ho) as Hc.
  destruct (map_get_leaf s c ci e Hw Hc (At_Leaf _ _ _ Ha (se_prim _ _ _ Hs))) as (m & Hm & _). pose proof (to_mtype_ok v P Hv HM) as HPok.
  pose proof (sy_nr s c ci e n orig m Hw Hc Ha Hs Hm) as Hnr. pose proof (sy_nc s c ci e n orig m Hw Hc Ha Hs Hm) as Hnc.
  rewrite (setitem_extra s c st ci e [a; b] v Ha Hw (se_prim _ _ _ Hs)) by discriminate.
  cbn [dispatch app]. unfold mwrap, setter, mbind, mlift. rewrite HM. cbn [num_env en_map extra]. rewrite Hm.
  rewrite (pei2 _ _ a b sa sb Hsa Hsb), (pei2f _ _ a b sa sb Hsa Hsb). unfold dm_get2. rewrite Hnr, Hnc, HA, HB. cbn [rbind rmap].
  cbn [is_symm info ei_symm ei_orig]. rewrite (se_symm _ _ _ Hs). rewrite Hns, (se_orig _ _ _ Hs).
  cbv beta iota. rewrite (pei2 _ _ a b sa sb Hsa Hsb). unfold dm_get2.
  change (dm_nr (DM orig (map (fun _ => 1) (sp_pat orig)))) with (sp_nr orig). change (dm_nc (DM orig (map (fun _ => 1) (sp_pat orig)))) with (sp_nc orig).
  rewrite (se_rows _ _ _ Hs), (se_cols _ _ _ Hs), HA, HB. cbn [rbind rmap].
  destruct (spy_eqb _ _) eqn:E; [|reflexivity]. exfalso. apply HBP. apply spy_eqb_eq in E.
  apply block_pattern_sub; [apply HPok|apply Hs|]. auto.
Qed.
End Entry.

(** ** Writing a block *)
Theorem symm_block_write s c (st : pstate) ci e n orig v P a b sa sb A B :
  Obj s c st -> At s ci e -> SymmEntry e n orig -> pay_ok v -> to_mtype v = Ok P ->
  sel_of a = Some sa -> sel_of b = Some sb -> sel_resolve sa n = Ok A -> sel_resolve sb n = Ok B ->
  dm_is_scalar P = false -> NoDup A -> NoDup B -> BlockPattern (dm_sp P) orig A B ->
  exists st' r R R', setitem zero s (num_env c) (pidx ci ++ [a; b]) v st = (st', Ok r) /\
    getitem zero s (num_env c) (pidx ci) st = Ok (RMat R) /\
    getitem zero s (num_env c) (pidx ci) st' = Ok (RMat R') /\
    (forall p q, dm_at R' (p, q) = dm_at R' (q, p)) /\
    (forall x y p q, nth_error A x = Some p -> nth_error B y = Some q -> dm_at R (p, q) <> None ->
       p <= q \/ ~ (In q A /\ In p B) -> dm_at R' (p, q) = Some (dm_val zero P (x, y))) /\
    (forall p q, ~ (In p A /\ In q B) -> ~ (In q A /\ In p B) -> dm_at R' (p, q) = dm_at R (p, q)) /\
    (forall ii, i_get zero s (pidx ci) = Ok ii -> unchanged (positions ii) st st').
Proof. intros. now apply (symm_block_write_sec s c st ci e n orig v P) with (sa := sa) (sb := sb). Qed.

Theorem symm_block_fill s c (st : pstate) ci e n orig v P a b sa sb A B :
  Obj s c st -> At s ci e -> SymmEntry e n orig -> pay_ok v -> to_mtype v = Ok P ->
  sel_of a = Some sa -> sel_of b = Some sb -> sel_resolve sa n = Ok A -> sel_resolve sb n = Ok B ->
  dm_is_scalar P = true ->
  exists st' r R R', setitem zero s (num_env c) (pidx ci ++ [a; b]) v st = (st', Ok r) /\
    getitem zero s (num_env c) (pidx ci) st = Ok (RMat R) /\
    getitem zero s (num_env c) (pidx ci) st' = Ok (RMat R') /\
    (forall p q, (In p A /\ In q B) \/ (In q A /\ In p B) -> dm_at R (p, q) <> None -> dm_at R' (p, q) = Some (dm_val zero P (0, 0))) /\
    (forall p q, ~ (In p A /\ In q B) -> ~ (In q A /\ In p B) -> dm_at R' (p, q) = dm_at R (p, q)) /\
    (forall ii, i_get zero s (pidx ci) = Ok ii -> unchanged (positions ii) st st').
Proof. intros. now apply (symm_block_fill_sec s c st ci e n orig v P) with (sa := sa) (sb := sb). Qed.

Theorem symm_block_mismatch s c (st : pstate) ci e n orig v P a b sa sb A B :
  Obj s c st -> At s ci e -> SymmEntry e n orig -> pay_ok v -> to_mtype v = Ok P ->
  sel_of a = Some sa -> sel_of b = Some sb -> sel_resolve sa n = Ok A -> sel_resolve sb n = Ok B ->
  dm_is_scalar P = false -> ~ BlockPattern (dm_sp P) orig A B ->
  setitem zero s (num_env c) (pidx ci ++ [a; b]) v st = (st, Err EException).
Proof. intros. now apply (symm_block_mismatch_sec s c st ci e n orig v P) with (sa := sa) (sb := sb) (A := A) (B := B). Qed.

(** ** Reading a block *)
Theorem symm_block_read s c (st : pstate) ci e n orig R a b sa sb A B :
  Obj s c st -> At s ci e -> SymmEntry e n orig ->
  sel_of a = Some sa -> sel_of b = Some sb -> sel_resolve sa n = Ok A -> sel_resolve sb n = Ok B ->
  getitem zero s (num_env c) (pidx ci) st = Ok (RMat R) ->
  (length A = length B /\
   (forall x y p q, nth_error A x = Some p -> nth_error B y = Some q -> y < x -> p <= q -> dm_at R (p, q) = None) /\
   exists E, getitem zero s (num_env c) (pidx ci ++ [a; b]) st = Ok (RMat E) /\ DmOk E /\ dm_shape E = (length A, length A) /\
     (forall x y, dm_at E (x, y) = dm_at E (y, x)) /\
     (forall x y p q, nth_error A x = Some p -> nth_error B y = Some q -> x <= y ->
        dm_at E (x, y) = if p <=? q then dm_at R (p, q) else None)) \/
  ((length A <> length B \/
    exists x y p q, nth_error A x = Some p /\ nth_error B y = Some q /\ y < x /\ p <= q /\ dm_at R (p, q) <> None) /\
   getitem zero s (num_env c) (pidx ci ++ [a; b]) st = Err EException).
Proof.
  intros Ho Ha Hs Hsa Hsb HA HB HR. pose proof (ob_wf _ _ _ Ho) as Hw. pose proof (ob_built _ _ _ Ho) as Hc.
  destruct (map_get_leaf s c ci e Hw Hc (At_Leaf _ _ _ Ha (se_prim _ _ _ Hs))) as (m & Hm & _).
  destruct (sy_ok s c ci m Hw Hc Hm) as (Hok & Hnd & Hb). pose proof (sy_inb s c ci m Hw Hc Hm st Ho) as Hib.
  destruct (sy_read zero s c ci e n orig m Hw Hc Ha Hs Hm st Ho) as (R0 & R1 & R2 & R3 & R4). rewrite HR in R1. injection R1 as <-.
  pose proof (sy_nr s c ci e n orig m Hw Hc Ha Hs Hm) as Hnr. pose proof (sy_nc s c ci e n orig m Hw Hc Ha Hs Hm) as Hnc.
  pose proof (sy_up s c ci e n orig m Hw Hc Ha Hs Hm) as Hup. rewrite Forall_forall in Hup.
  set (i := dm_sub m A B). assert (Hib' : inb (ps_master st) i) by (now apply sub_inb).
  assert (Hg : getitem zero s (num_env c) (pidx ci ++ [a; b]) st =
     wrapE (let* r := vec_get (ps_master st) i in rmap (@RMat T) (dm_triu2symm r))).
  { unfold getitem. rewrite (travS_at zero s ci e Ha Hw). unfold endD, subT. rewrite (se_prim _ _ _ Hs). rewrite mwrap_snd.
    cbn [dispatch]. unfold getter. simpl ([] ++ ci). cbn [num_env en_map en_pmap extra]. rewrite Hm. unfold mbind, mlift, get_master.
    rewrite (pei2 _ _ a b sa sb Hsa Hsb). unfold dm_get2. rewrite Hnr, Hnc, HA, HB. cbn [rbind rmap is_symm info ei_symm]. rewrite (se_symm _ _ _ Hs).
    reflexivity. }
  assert (Hlow : forall p q, q < p -> dm_at m (p, q) = None).
  { intros p q H. destruct (dm_at m (p, q)) eqn:E; [|reflexivity]. apply dm_at_In in E. apply Hup in E. simpl in E. lia. }
  assert (HRm : forall p q, p <= q -> dm_at R (p, q) = dm_at (vals zero (ps_master st) m) (p, q)).
  { intros p q H. rewrite R4. unfold mirror. simpl. apply Nat.leb_le in H. now rewrite H. }
  assert (HRn : forall p q, p <= q -> (dm_at R (p, q) <> None <-> dm_at m (p, q) <> None)).
  { intros p q H. rewrite HRm by exact H. unfold vals. rewrite dm_at_map. destruct (dm_at m (p, q)); simpl; split; intros K; congruence. }
  assert (Hval : forall x y, dm_at (vals zero (ps_master st) i) (x, y) = match nth_error A x, nth_error B y with
       | Some p, Some q => if p <=? q then dm_at R (p, q) else None | _, _ => None end).
  { intros x y. unfold vals, i. rewrite dm_at_map, sub_at. destruct (nth_error A x) as [p|]; [|reflexivity]. destruct (nth_error B y) as [q|]; [|reflexivity].
    destruct (p <=? q) eqn:E.
    - apply Nat.leb_le in E. rewrite HRm by exact E. unfold vals. now rewrite dm_at_map.
    - apply Nat.leb_gt in E. now rewrite Hlow. }
  destruct (Nat.eq_dec (length A) (length B)) as [EL|NL].
  2: { right. split; [now left|]. rewrite Hg. unfold vec_get. rewrite (get_all zero (ps_master st) (dm_nz i) Hib'). cbn [rbind].
       change (sp_nr (dm_sp i)) with (length A). change (sp_nc (dm_sp i)) with (length B).
       destruct ((length A =? 1) && negb (length B =? 1)) eqn:Er; cbn [rbind]; unfold dm_triu2symm, dm_nr, dm_nc; cbn [dm_sp sp_nr sp_nc];
         change (sp_nr (dm_sp i)) with (length A); change (sp_nc (dm_sp i)) with (length B).
       - apply andb_true_iff in Er as [_ Er]. rewrite Er. reflexivity.
       - assert (F : length A =? length B = false) by (now apply Nat.eqb_neq). rewrite F. reflexivity. }
  assert (Hvg : vec_get (ps_master st) i = Ok (vals zero (ps_master st) i)).
  { apply vec_get_ok; [|exact Hib']. change (dm_nr i) with (length A). change (dm_nc i) with (length B). rewrite <- EL.
    destruct (length A =? 1); reflexivity. }
  rewrite Hvg in Hg. cbn [rbind] in Hg.
  destruct (existsb (fun p => snd p <? fst p) (sp_pat (dm_sp i))) eqn:Ex.
  - right. split.
    + right. apply existsb_exists in Ex as ([x y] & Hp & E). simpl in E. apply Nat.ltb_lt in E.
      destruct (dm_at_Some i (x, y) (dm_build_ok _ _ _) Hp) as (k & Hk). apply sub_at_inv in Hk as (p & q & H1 & H2 & H3). simpl in H1, H2.
      assert (Hle : p <= q). { pose proof (dm_at_In _ _ _ H3) as Hi. apply Hup in Hi. exact Hi. }
      exists x, y, p, q. split; [exact H1|]. split; [exact H2|]. split; [exact E|]. split; [exact Hle|]. apply HRn; [exact Hle|]. congruence.
    + rewrite Hg. unfold dm_triu2symm. change (dm_nr (vals zero (ps_master st) i)) with (length A). change (dm_nc (vals zero (ps_master st) i)) with (length B).
      rewrite EL, Nat.eqb_refl. cbn [negb]. change (sp_pat (dm_sp (vals zero (ps_master st) i))) with (sp_pat (dm_sp i)). rewrite Ex. reflexivity.
  - left. split; [exact EL|].
    assert (Hno : forall x y, y < x -> dm_at i (x, y) = None).
    { intros x y H. destruct (dm_at i (x, y)) eqn:E; [|reflexivity]. exfalso. apply dm_at_In in E.
      assert (F : existsb (fun p => snd p <? fst p) (sp_pat (dm_sp i)) = true).
      { apply existsb_exists. exists (x, y). split; [exact E|]. simpl. now apply Nat.ltb_lt. }
      congruence. }
    split.
    { intros x y p q H1 H2 Hlt Hle. specialize (Hno x y Hlt). unfold i in Hno. rewrite sub_at, H1, H2 in Hno.
      destruct (dm_at R (p, q)) eqn:E; [|reflexivity]. exfalso. apply (proj1 (HRn p q Hle)); [congruence|exact Hno]. }
    destruct (triu_ok (vals zero (ps_master st) i) (length A)) as (E & ER & HE1 & HE2 & HE3).
    + apply DmOk_map, dm_build_ok.
    + reflexivity.
    + symmetry. exact EL.
    + apply Forall_forall. intros [x y] Hp. simpl. destruct (Nat.le_gt_cases x y) as [H|H]; [exact H|].
      destruct (dm_at_Some i (x, y) (dm_build_ok _ _ _) Hp) as (k & Hk). rewrite (Hno x y H) in Hk. discriminate.
    + exists E. rewrite Hg, ER. split; [reflexivity|]. split; [exact HE1|]. split; [exact HE2|]. split.
      * intros x y. rewrite !HE3. apply mirror_sym.
      * intros x y p q H1 H2 Hle. rewrite HE3. unfold mirror. simpl. apply Nat.leb_le in Hle. rewrite Hle, Hval, H1, H2. reflexivity.
Qed.

(** For the same increasing rows and columns it is that block of the matrix. *)
Theorem symm_block_read_diag s c (st : pstate) ci e n orig R a b sa sb A :
  Obj s c st -> At s ci e -> SymmEntry e n orig ->
  sel_of a = Some sa -> sel_of b = Some sb -> sel_resolve sa n = Ok A -> sel_resolve sb n = Ok A ->
  (forall x y p q, nth_error A x = Some p -> nth_error A y = Some q -> x < y -> p < q) ->
  getitem zero s (num_env c) (pidx ci) st = Ok (RMat R) ->
  exists E, getitem zero s (num_env c) (pidx ci ++ [a; b]) st = Ok (RMat E) /\ dm_shape E = (length A, length A) /\
    forall x y p q, nth_error A x = Some p -> nth_error A y = Some q -> dm_at E (x, y) = dm_at R (p, q).
Proof.
  intros Ho Ha Hs Hsa Hsb HA HB Hinc HR.
  destruct (symm_read zero s c st ci e n orig Ho Ha Hs) as (R0 & R1 & _ & _ & Hsym & _). rewrite HR in R1. injection R1 as <-.
  destruct (symm_block_read s c st ci e n orig R a b sa sb A A Ho Ha Hs Hsa Hsb HA HB HR) as
    [(_ & _ & E & HE & _ & Hsh & Hes & Hev)|([Hf|(x & y & p & q & H1 & H2 & Hlt & Hle & _)] & _)].
  - exists E. split; [exact HE|]. split; [exact Hsh|].
    assert (G : forall x y p q, x <= y -> nth_error A x = Some p -> nth_error A y = Some q -> dm_at E (x, y) = dm_at R (p, q)).
    { intros x y p q Hle H1 H2. rewrite (Hev x y p q H1 H2 Hle).
      assert (Hpq : p <= q). { destruct (Nat.eq_dec x y) as [->|Hne]; [assert (p = q) by congruence; lia|]. assert (p < q) by (apply (Hinc x y); auto; lia). lia. }
      apply Nat.leb_le in Hpq. now rewrite Hpq. }
    intros x y p q H1 H2. destruct (Nat.le_ge_cases x y) as [Hle|Hge]; [now apply G|]. rewrite Hes, Hsym. now apply G.
  - congruence.
  - pose proof (Hinc y x q p H2 H1 Hlt). lia.
Qed.

(** ** One extra index: elements by their number in the columns *)
Theorem symm_linear_refused s c (st : pstate) ci e n orig v P a sa :
  Obj s c st -> At s ci e -> SymmEntry e n orig -> pay_ok v -> to_mtype v = Ok P -> dm_is_scalar P = false -> sel_of a = Some sa ->
  setitem zero s (num_env c) (pidx ci ++ [a]) v st = (st, Err EException).
Proof.
  intros Ho Ha Hs Hv HM Hns Hsa. pose proof (ob_wf _ _ _ Ho) as Hw. pose proof (ob_built _ _ _ Ho) as Hc.
  destruct (map_get_leaf s c ci e Hw Hc (At_Leaf _ _ _ Ha (se_prim _ _ _ Hs))) as (m & Hm & _).
  pose proof (sy_nr s c ci e n orig m Hw Hc Ha Hs Hm) as Hnr. pose proof (sy_nc s c ci e n orig m Hw Hc Ha Hs Hm) as Hnc.
  rewrite (setitem_extra s c st ci e [a] v Ha Hw (se_prim _ _ _ Hs)) by discriminate.
  cbn [dispatch app]. unfold mwrap, setter, mbind, mlift. rewrite HM. cbn [num_env en_map extra]. rewrite Hm.
  rewrite (pei1 _ _ a sa Hsa), (pei1f _ _ a sa Hsa). unfold dm_get1, dm_numel. rewrite Hnr, Hnc.
  destruct (sel_resolve sa (n * n)) as [K|] eqn:EK; [|reflexivity]. cbn [rbind rmap].
  cbn [is_symm info ei_symm ei_orig]. rewrite (se_symm _ _ _ Hs). rewrite Hns, (se_orig _ _ _ Hs).
  cbv beta iota. rewrite (pei1 _ _ a sa Hsa). unfold dm_get1, dm_numel.
  change (dm_nr (DM orig (map (fun _ => 1) (sp_pat orig)))) with (sp_nr orig). change (dm_nc (DM orig (map (fun _ => 1) (sp_pat orig)))) with (sp_nc orig).
  rewrite (se_rows _ _ _ Hs), (se_cols _ _ _ Hs), EK. cbn [rbind rmap].
  destruct (spy_eqb _ _) eqn:E; [|reflexivity]. apply spy_eqb_eq in E.
  assert (Hrc : forall X (d : dm X), dm_nr d = n -> (dm_nr (dm_lin d K), dm_nc (dm_lin d K)) = if (n =? 1) && negb (length K =? 1) then (1, length K) else (length K, 1)).
  { intros X d Hd. unfold dm_lin. rewrite Hd. destruct ((n =? 1) && negb (length K =? 1)); reflexivity. }
  pose proof (Hrc _ (DM orig (map (fun _ => 1) (sp_pat orig))) (se_rows _ _ _ Hs)) as H1. pose proof (Hrc _ m Hnr) as H2.
  unfold dm_nr at 1, dm_nc at 1 in H1. rewrite E in H1. fold (dm_nr P) (dm_nc P) in H1.
  unfold dm_get_sp. change (dm_nr (dm_T P)) with (dm_nc P). change (dm_nc (dm_T P)) with (dm_nr P).
  fold (dm_nr (dm_lin m K)) (dm_nc (dm_lin m K)).
  destruct ((dm_nc P =? dm_nr (dm_lin m K)) && (dm_nr P =? dm_nc (dm_lin m K))) eqn:F; [|reflexivity]. exfalso.
  apply andb_true_iff in F as [F1 F2]. apply Nat.eqb_eq in F1, F2. unfold dm_is_scalar in Hns.
  destruct ((n =? 1) && negb (length K =? 1)); injection H1 as G1 G2; injection H2 as G3 G4; rewrite G1, G2, G3, G4 in *; rewrite F1, ?F2 in Hns; simpl in Hns; try discriminate;
  rewrite <- ?F2 in Hns; simpl in Hns; try discriminate; rewrite F1, F2 in *; simpl in *; discriminate.
Qed.

Lemma lin_nz (d : dm nat) K k : DmOk d -> dm_nr d <> 0 -> NoDup (dm_nz d) ->
  forall r q, dm_at d (r, q) = Some k -> (In k (dm_nz (dm_lin d K)) <-> In (r + q * dm_nr d) K).
Proof.
  intros Hd Hz Hnd r q Hk. destruct (dm_at_bounds d _ _ Hd Hk) as [Hr _]. simpl in Hr.
  assert (Hok : DmOk (dm_lin d K)) by (unfold dm_lin; destruct (_ && _); apply dm_build_ok).
  assert (Hat : forall p, dm_at (dm_lin d K) p = Some k -> exists l, In l K /\ dm_at d (l mod dm_nr d, l / dm_nr d) = Some k).
  { intros [x y]. unfold dm_lin. destruct (_ && _); rewrite dm_build_at; simpl fst; simpl snd.
    - destruct ((x <? 1) && (y <? length K)) eqn:E; [|discriminate]. apply andb_true_iff in E as [_ E]. apply Nat.ltb_lt in E.
      intros H. exists (nth y K 0). split; [now apply nth_In|exact H].
    - destruct ((x <? length K) && (y <? 1)) eqn:E; [|discriminate]. apply andb_true_iff in E as [E _]. apply Nat.ltb_lt in E.
      intros H. exists (nth x K 0). split; [now apply nth_In|exact H]. }
  split.
  - intros Hin. apply (nz_at _ k Hok) in Hin as (p & Hp). apply Hat in Hp as (l & Hl & Hp).
    pose proof (nz_inj d _ _ _ Hd Hnd Hk Hp) as [= E1 E2]. rewrite E1, E2, Nat.add_comm, Nat.mul_comm, <- Nat.div_mod by exact Hz. exact Hl.
  - intros Hin. apply In_nth_error in Hin as (x & Hx).
    assert (Hlt : x < length K) by (apply nth_error_Some; congruence). pose proof (nth_error_nth _ _ 0 Hx) as Hn.
    assert (Ed : dm_at d ((r + q * dm_nr d) mod dm_nr d, (r + q * dm_nr d) / dm_nr d) = Some k).
    { rewrite Nat.mod_add, Nat.div_add, Nat.mod_small, Nat.div_small by assumption. exact Hk. }
    unfold dm_lin. destruct (_ && _).
    + apply (dm_at_nz _ (0, x)). rewrite dm_build_at. simpl fst. simpl snd. apply Nat.ltb_lt in Hlt. rewrite Hlt. simpl andb. cbv iota. now rewrite Hn.
    + apply (dm_at_nz _ (x, 0)). rewrite dm_build_at. simpl fst. simpl snd. apply Nat.ltb_lt in Hlt. rewrite Hlt. simpl andb. cbv iota. now rewrite Hn.
Qed.

Lemma lin_ok {X} (d : dm X) K : DmOk (dm_lin d K).
Proof. unfold dm_lin. destruct (_ && _); apply dm_build_ok. Qed.
Lemma lin_sub_nz {X} (d : dm X) K k : In k (dm_nz (dm_lin d K)) -> In k (dm_nz d).
Proof.
  intros H. unfold dm_lin in H. destruct (_ && _); destruct (dm_build_nz _ _ _ _ H) as (p & _ & _ & Hp); revert Hp; cbv beta; apply dm_at_nz.
Qed.

(** A scalar is written to the listed elements on or above the diagonal; the numbers of
    elements below the diagonal are ignored. *)
Theorem symm_linear_fill s c (st : pstate) ci e n orig v P a sa K :
  Obj s c st -> At s ci e -> SymmEntry e n orig -> pay_ok v -> to_mtype v = Ok P -> dm_is_scalar P = true ->
  sel_of a = Some sa -> sel_resolve sa (n * n) = Ok K ->
  exists st' r R R', setitem zero s (num_env c) (pidx ci ++ [a]) v st = (st', Ok r) /\
    getitem zero s (num_env c) (pidx ci) st = Ok (RMat R) /\
    getitem zero s (num_env c) (pidx ci) st' = Ok (RMat R') /\
    (forall p q, p <= q -> In (p + q * n) K -> dm_at R (p, q) <> None ->
       dm_at R' (p, q) = Some (dm_val zero P (0, 0)) /\ dm_at R' (q, p) = Some (dm_val zero P (0, 0))) /\
    (forall p q, p <= q -> ~ In (p + q * n) K -> dm_at R' (p, q) = dm_at R (p, q) /\ dm_at R' (q, p) = dm_at R (q, p)) /\
    (forall ii, i_get zero s (pidx ci) = Ok ii -> unchanged (positions ii) st st').
Proof.
  intros Ho Ha Hs Hv HM Hsc Hsa HK. pose proof (ob_wf _ _ _ Ho) as Hw. pose proof (ob_built _ _ _ Ho) as Hc.
  destruct (map_get_leaf s c ci e Hw Hc (At_Leaf _ _ _ Ha (se_prim _ _ _ Hs))) as (m & Hm & _).
  destruct (sy_ok s c ci m Hw Hc Hm) as (Hok & Hnd & Hb). pose proof (to_mtype_ok v P Hv HM) as HPok.
  pose proof (sy_inb s c ci m Hw Hc Hm st Ho) as Hib.
  pose proof (sy_nr s c ci e n orig m Hw Hc Ha Hs Hm) as Hnr. pose proof (sy_nc s c ci e n orig m Hw Hc Ha Hs Hm) as Hnc.
  assert (Hib' : forall w : list T, length w = length (ps_master st) -> inb w (dm_lin m K)).
  { intros w Hl. unfold inb in *. rewrite Forall_forall in *. intros k Hk. rewrite Hl. apply Hib. eapply lin_sub_nz; eauto. }
  destruct (set_scalar (ps_master st) (dm_lin m K) P) as (v1 & E1 & L1 & W1 & U1); auto; [apply lin_ok|].
  destruct (set_scalar v1 (dm_lin m K) P) as (v2 & E2 & L2 & W2 & U2); auto; [apply lin_ok|].
  assert (Hset : setitem zero s (num_env c) (pidx ci ++ [a]) v st = (with_master st v2, Ok RNone)).
  { rewrite (setitem_extra s c st ci e [a] v Ha Hw (se_prim _ _ _ Hs)) by discriminate.
    cbn [dispatch app]. unfold mwrap, setter, mbind, mlift. rewrite HM. cbn [num_env en_map extra]. rewrite Hm.
    rewrite (pei1 _ _ a sa Hsa), (pei1f _ _ a sa Hsa). unfold dm_get1, dm_numel. rewrite Hnr, Hnc, HK. cbn [rbind rmap].
    cbn [is_symm info ei_symm ei_orig]. rewrite (se_symm _ _ _ Hs). rewrite Hsc.
    unfold master_set. cbn [en_kind num_env]. rewrite E1. cbn [ps_master ps_mirror ps_storage]. rewrite E2. reflexivity. }
  assert (Ho' : Obj s c (with_master st v2)) by (apply Obj_with_master; [exact Ho|congruence]).
  destruct (sy_read zero s c ci e n orig m Hw Hc Ha Hs Hm st Ho) as (R & R1 & R2 & R3 & R4).
  destruct (sy_read zero s c ci e n orig m Hw Hc Ha Hs Hm _ Ho') as (R' & R1' & R2' & R3' & R4').
  assert (Hin : forall r q k, dm_at m (r, q) = Some k -> (In k (dm_nz (dm_lin m K)) <-> In (r + q * n) K)).
  { intros r q k Hk. rewrite <- Hnr. apply lin_nz; auto. destruct (dm_at_bounds m _ _ Hok Hk) as [H1 _]. lia. }
  destruct (symm_after s c st ci e n orig Ho Ha Hs m v2
    (fun r q x => In (r + q * n) K /\ x = dm_val zero P (0, 0))
    (fun r q => ~ In (r + q * n) K) R R' Hm) as (K1 & K2); auto.
  { congruence. }
  { intros r q k Hk x [Hi ->]. apply W2. now apply (Hin r q k Hk). }
  { intros r q k Hk Hn. assert (Hk' : ~ In k (dm_nz (dm_lin m K))) by (intros H; now apply Hn, (Hin r q k Hk)).
    rewrite (proj1 (U2 k Hk')). now apply U1. }
  exists (with_master st v2), RNone, R, R'. split; [exact Hset|]. split; [exact R1|]. split; [exact R1'|]. split; [|split].
  - intros p q Hle Hi Hn. now apply K1.
  - intros p q Hle Hi. now apply K2.
  - intros ii Hii. rewrite (i_get_at zero s c ci e Hw Hc Ha), Hm in Hii. injection Hii as <-. split; [simpl; congruence|].
    simpl. intros k Hk. assert (G : ~ In k (dm_nz (dm_lin m K))) by (intros H; apply Hk; eapply lin_sub_nz; eauto).
    rewrite (proj2 (U2 k G)). apply U1, G.
Qed.

(** Reading by one index gives one element, or raises. *)
Theorem symm_linear_read s c (st : pstate) ci e n orig R a sa K :
  Obj s c st -> At s ci e -> SymmEntry e n orig -> sel_of a = Some sa -> sel_resolve sa (n * n) = Ok K ->
  getitem zero s (num_env c) (pidx ci) st = Ok (RMat R) ->
  (exists k E, K = [k] /\ getitem zero s (num_env c) (pidx ci ++ [a]) st = Ok (RMat E) /\ dm_shape E = (1, 1) /\
     dm_at E (0, 0) = if k mod n <=? k / n then dm_at R (k mod n, k / n) else None) \/
  (length K <> 1 /\ getitem zero s (num_env c) (pidx ci ++ [a]) st = Err EException).
Proof.
  intros Ho Ha Hs Hsa HK HR. pose proof (ob_wf _ _ _ Ho) as Hw. pose proof (ob_built _ _ _ Ho) as Hc.
  destruct (map_get_leaf s c ci e Hw Hc (At_Leaf _ _ _ Ha (se_prim _ _ _ Hs))) as (m & Hm & _).
  destruct (sy_ok s c ci m Hw Hc Hm) as (Hok & Hnd & Hb). pose proof (sy_inb s c ci m Hw Hc Hm st Ho) as Hib.
  destruct (sy_read zero s c ci e n orig m Hw Hc Ha Hs Hm st Ho) as (R0 & R1 & R2 & R3 & R4). rewrite HR in R1. injection R1 as <-.
  pose proof (sy_nr s c ci e n orig m Hw Hc Ha Hs Hm) as Hnr. pose proof (sy_nc s c ci e n orig m Hw Hc Ha Hs Hm) as Hnc.
  pose proof (sy_up s c ci e n orig m Hw Hc Ha Hs Hm) as Hup. rewrite Forall_forall in Hup.
  set (i := dm_lin m K). assert (Hib' : inb (ps_master st) i).
  { unfold inb in *. rewrite Forall_forall in *. intros k Hk. apply Hib. eapply lin_sub_nz; eauto. }
  assert (Hg : getitem zero s (num_env c) (pidx ci ++ [a]) st =
     wrapE (let* r := vec_get (ps_master st) i in rmap (@RMat T) (dm_triu2symm r))).
  { unfold getitem. rewrite (travS_at zero s ci e Ha Hw). unfold endD, subT. rewrite (se_prim _ _ _ Hs). rewrite mwrap_snd.
    cbn [dispatch]. unfold getter. simpl ([] ++ ci). cbn [num_env en_map en_pmap extra]. rewrite Hm. unfold mbind, mlift, get_master.
    rewrite (pei1 _ _ a sa Hsa). unfold dm_get1, dm_numel. rewrite Hnr, Hnc, HK. cbn [rbind rmap is_symm info ei_symm]. rewrite (se_symm _ _ _ Hs).
    reflexivity. }
  destruct (Nat.eq_dec (length K) 1) as [EL|NL].
  - left. destruct K as [|k [|]]; try discriminate. 
    assert (Hi : i = dm_build 1 1 (fun p => dm_at m (k mod n, k / n))).
    { unfold i, dm_lin. rewrite Hnr. simpl. rewrite andb_false_r. apply dm_build_ext. intros [x y] Hx Hy. simpl in Hx, Hy. replace x with 0 by lia. reflexivity. }
    assert (Hvg : vec_get (ps_master st) i = Ok (vals zero (ps_master st) i)).
    { apply vec_get_ok; [|exact Hib']. rewrite Hi. reflexivity. }
    destruct (triu_ok (vals zero (ps_master st) i) 1) as (E & ER & HE1 & HE2 & HE3).
    + apply DmOk_map, lin_ok.
    + rewrite Hi. reflexivity.
    + rewrite Hi. reflexivity.
    + apply Forall_forall. intros [x y] Hp. simpl. change (sp_pat (dm_sp (vals zero (ps_master st) i))) with (sp_pat (dm_sp i)) in Hp.
      rewrite Hi, dm_build_pat in Hp. apply filter_In in Hp as [Hp _]. apply in_all_pos in Hp as [Hp _]. simpl in Hp. lia.
    + exists k, E. split; [reflexivity|]. rewrite Hg, Hvg. cbn [rbind]. rewrite ER. split; [reflexivity|]. split; [exact HE2|].
      rewrite HE3. unfold mirror. simpl. unfold vals. rewrite dm_at_map, Hi, dm_build_at. simpl fst. simpl snd. change ((0 <? 1) && (0 <? 1)) with true. cbv iota.
      destruct (k mod n <=? k / n) eqn:El.
      * rewrite R4. unfold mirror. simpl. rewrite El. unfold vals. now rewrite dm_at_map.
      * destruct (dm_at m (k mod n, k / n)) eqn:Ek; [|reflexivity]. apply dm_at_In in Ek. apply Hup in Ek. simpl in Ek. apply Nat.leb_gt in El. lia.
  - right. split; [exact NL|]. rewrite Hg. unfold vec_get. rewrite (get_all zero (ps_master st) (dm_nz i) Hib'). cbn [rbind].
    apply Nat.eqb_neq in NL.
    assert (Hsh : (sp_nr (dm_sp i), sp_nc (dm_sp i)) = if (n =? 1) then (1, length K) else (length K, 1)).
    { unfold i, dm_lin. rewrite Hnr, NL. simpl negb. rewrite andb_true_r. destruct (n =? 1); reflexivity. }
    destruct (n =? 1); injection Hsh as H1 H2; rewrite H1, H2.
    + simpl (1 =? 1). rewrite NL. simpl. unfold dm_triu2symm, dm_nr, dm_nc. simpl. rewrite NL. reflexivity.
    + rewrite NL. simpl. unfold dm_triu2symm, dm_nr, dm_nc. simpl dm_sp. rewrite H1, H2, NL. reflexivity.
Qed.
End P.
