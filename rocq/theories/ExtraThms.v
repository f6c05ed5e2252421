(** What row, column and linear selectors stand for, and reading and writing the blocks
    [s[ci, a, b]] and [s[ci, a]] of ordinary entries, element by element (C28). *)
From Verif Require Import PyBase IndexModel DMModel StructModel StructSpec PowerModel PowerSpec
  IndexProofs StructProofs LayoutProofs LayoutThms LayoutExamples DMProofs PowerProofs PowerThms SliceProofs PowerThms2 PowerThms3 PowerThms4 PowerThms5
  SymmBlockThms.

Open Scope nat_scope.

(** ** Specification *)
(** [PosIs n i k]: the Python index [i] of a sequence of length [n] is position [k]. *)
Definition PosIs (n : nat) (i : Z) (k : nat) : Prop := k < n /\ (i = Z.of_nat k \/ i = (Z.of_nat k - Z.of_nat n)%Z).
(** The slices of a sequence of length [n] whose bounds lie inside the sequence. *)
Definition SliceIn (n : nat) (s : slc) : Prop :=
  match sl_step s with None => True | Some c => c <> 0%Z /\ ((c < 0)%Z -> 0 < n) end /\
  match sl_start s with None => True
  | Some v => (- Z.of_nat n <= v <= Z.of_nat n)%Z /\ match sl_step s with None => True | Some c => (c < 0 -> v < Z.of_nat n)%Z end end /\
  match sl_stop s with None => True | Some v => (- Z.of_nat n <= v <= Z.of_nat n)%Z end.
(** The slices that reach outside. *)
Definition SliceOut (n : nat) (s : slc) : Prop :=
  sl_step s = Some 0%Z \/ (exists v, sl_start s = Some v /\ (v < - Z.of_nat n)%Z) \/ (exists v, sl_stop s = Some v /\ (Z.of_nat n < v)%Z).

Inductive Selects {T} (n : nat) : pel T -> list nat -> Prop :=
| Selects_int : forall i k, PosIs n i k -> Selects n (PInt i) [k]
| Selects_list : forall l ks, Forall2 (PosIs n) l ks -> Selects n (PLst (map KI l)) ks
| Selects_slice : forall s, SliceIn n s -> Selects n (PSlc s) (map Z.to_nat (py_slice_positions (Z.of_nat n) s)).
Inductive Rejects {T} (n : nat) : pel T -> Prop :=
| Rejects_int : forall i, ~ (exists k, PosIs n i k) -> Rejects n (PInt i)
| Rejects_list : forall l i, In i l -> ~ (exists k, PosIs n i k) -> Rejects n (PLst (map KI l))
| Rejects_slice : forall s, SliceOut n s -> Rejects n (PSlc s).

(** ** The selectors of the model *)
Lemma pos_norm n i k : PosIs n i k <-> norm_index n i = Ok k.
Proof.
  unfold PosIs, norm_index. split.
  - intros [H [->| ->]].
    + replace ((- Z.of_nat n <=? Z.of_nat k) && (Z.of_nat k <? Z.of_nat n))%Z with true by lia.
      replace (Z.of_nat k <? 0)%Z with false by lia. now rewrite Nat2Z.id.
    + replace ((- Z.of_nat n <=? Z.of_nat k - Z.of_nat n) && (Z.of_nat k - Z.of_nat n <? Z.of_nat n))%Z with true by lia.
      replace (Z.of_nat k - Z.of_nat n <? 0)%Z with true by lia. f_equal. lia.
  - destruct ((- Z.of_nat n <=? i) && (i <? Z.of_nat n))%Z eqn:E; [|discriminate]. intros [= <-]. destruct (i <? 0)%Z eqn:F; lia.
Qed.
Lemma pos_norm_err n i : ~ (exists k, PosIs n i k) -> norm_index n i = Err EException.
Proof.
  intros H. destruct (norm_index n i) as [k|x] eqn:E; [exfalso; apply H; exists k; now apply pos_norm|].
  unfold norm_index in E. destruct (_ && _)%bool; congruence.
Qed.
Lemma ck_ints_map l : ck_ints (map KI l) = Some l.
Proof. induction l as [|i l IH]; [reflexivity|]. simpl in *. now rewrite IH. Qed.

Lemma rmapM_norm_in n l : Forall (fun i => (0 <= i < Z.of_nat n)%Z) l -> rmapM (norm_index n) l = Ok (map Z.to_nat l).
Proof.
  induction 1 as [|i l H _ IH]; [reflexivity|]. simpl. rewrite IH.
  replace (norm_index n i) with (@Ok nat (Z.to_nat i)); [reflexivity|]. symmetry. apply pos_norm. unfold PosIs. lia.
Qed.

Lemma slice_in_ok n s : SliceIn n s -> casadi_slice s n = Ok (map Z.to_nat (py_slice_positions (Z.of_nat n) s)).
Proof.
  intros (H1 & H2 & H3).
  assert (Hs : sl_step s <> Some 0%Z) by (destruct (sl_step s) as [z|]; [intros [= ->]; destruct H1 as [H1 _]; now apply H1|discriminate]).
  pose proof (slice_range_positions s (Z.of_nat n) ltac:(lia) Hs) as E. unfold slice_range, slice_indices in E.
  assert (N0 : (Z.of_nat n <? 0)%Z = false) by (apply Z.ltb_ge, Nat2Z.is_nonneg). rewrite N0 in E. unfold casadi_slice.
  set (c := match sl_step s with None => 1%Z | Some k => k end) in *.
  assert (Hc : (c =? 0)%Z = false) by (unfold c; destruct (sl_step s) as [k|]; [destruct (Z.eqb_spec k 0); [congruence|reflexivity]|reflexivity]).
  rewrite Hc in *. cbn [rbind] in E. injection E as E.
  assert (K : (c < 0)%Z -> 0 < n) by (unfold c; destruct (sl_step s); [tauto|lia]).
  set (start := match sl_start s with None => if (c <? 0)%Z then (Z.of_nat n - 1)%Z else 0%Z | Some v => if (v <? 0)%Z then (v + Z.of_nat n)%Z else v end).
  set (stop := match sl_stop s with None => if (c <? 0)%Z then (-1)%Z else Z.of_nat n | Some v => if (v <? 0)%Z then (v + Z.of_nat n)%Z else v end).
  assert (A1 : (0 <= start <= Z.of_nat n)%Z /\ ((c < 0)%Z -> (start < Z.of_nat n)%Z)).
  { unfold start. destruct (sl_start s) as [v|].
    - destruct H2 as [H2 H4]. assert ((c < 0)%Z -> (v < Z.of_nat n)%Z) by (unfold c; destruct (sl_step s); [exact H4|lia]).
      destruct (v <? 0)%Z eqn:F; lia.
    - destruct (c <? 0)%Z eqn:F; lia. }
  assert (A2 : (-1 <= stop <= Z.of_nat n)%Z /\ ((0 < c)%Z -> (0 <= stop)%Z)).
  { unfold stop. destruct (sl_stop s) as [v|]; [destruct (v <? 0)%Z eqn:F; lia|destruct (c <? 0)%Z eqn:F; lia]. }
  replace ((Z.of_nat n <? stop) || (start <? 0))%Z with false by lia.
  assert (G : pyrange3 start stop c = py_slice_positions (Z.of_nat n) s).
  { rewrite <- E. destruct (c <? 0)%Z eqn:F.
    - assert (S1 : (match sl_start s with None => Z.of_nat n - 1 | Some v => slice_adjust v (Z.of_nat n) (-1) (Z.of_nat n - 1) end = start)%Z).
      { unfold start, slice_adjust in *. destruct (sl_start s) as [v|]; [|now rewrite ?F]. destruct (v <? 0)%Z eqn:F1; lia. }
      assert (S2 : (match sl_stop s with None => -1 | Some v => slice_adjust v (Z.of_nat n) (-1) (Z.of_nat n - 1) end = Z.min stop (Z.of_nat n - 1))%Z).
      { unfold stop, slice_adjust in *. destruct (sl_stop s) as [v|]; [|rewrite ?F; lia]. destruct (v <? 0)%Z eqn:F1; lia. }
      rewrite S1, S2. destruct (Z.eq_dec stop (Z.of_nat n)) as [Es|Es]; [|now rewrite Z.min_l by lia].
      unfold pyrange3, pyrange3_len. replace (0 <? c)%Z with false by lia.
      replace (stop <? start)%Z with false by lia. replace (Z.min stop (Z.of_nat n - 1) <? start)%Z with false by lia. reflexivity.
    - assert (S1 : (match sl_start s with None => 0 | Some v => slice_adjust v (Z.of_nat n) 0 (Z.of_nat n) end = start)%Z).
      { unfold start, slice_adjust in *. destruct (sl_start s) as [v|]; [|now rewrite ?F]. destruct (v <? 0)%Z eqn:F1; lia. }
      assert (S2 : (match sl_stop s with None => Z.of_nat n | Some v => slice_adjust v (Z.of_nat n) 0 (Z.of_nat n) end = stop)%Z).
      { unfold stop, slice_adjust in *. destruct (sl_stop s) as [v|]; [|now rewrite ?F]. destruct (v <? 0)%Z eqn:F1; lia. }
      now rewrite S1, S2. }
  rewrite G. apply rmapM_norm_in. apply Forall_forall. intros i Hi. now apply py_slice_positions_in in Hi.
Qed.
Lemma slice_out_err n s : SliceOut n s -> casadi_slice s n = Err EException.
Proof.
  unfold casadi_slice. intros H. set (c := match sl_step s with None => 1%Z | Some k => k end) in *.
  destruct (c =? 0)%Z eqn:Hc; [reflexivity|]. destruct H as [H|[(v & H & Hv)|(v & H & Hv)]].
  - unfold c in Hc. rewrite H in Hc. discriminate.
  - rewrite H. replace (v <? 0)%Z with true by lia. replace (v + Z.of_nat n <? 0)%Z with true by lia. now rewrite orb_true_r.
  - rewrite H. replace (v <? 0)%Z with false by lia. replace (Z.of_nat n <? v)%Z with true by lia. reflexivity.
Qed.

Section P.
Context {T : Type} (zero : T).
Notation pel := (pel T).
Notation pay := (pay T).
Notation pstate := (pstate T).

Lemma selects_resolve n (p : pel) l : Selects n p l -> exists sa, sel_of p = Some sa /\ sel_resolve sa n = Ok l.
Proof.
  destruct 1 as [i k H|l ks H|s H].
  - exists (SelInt i). split; [reflexivity|]. simpl. apply pos_norm in H. now rewrite H.
  - exists (SelList l). split; [simpl; now rewrite ck_ints_map|]. simpl. induction H as [|i k l ks H _ IH]; [reflexivity|].
    simpl. apply pos_norm in H. now rewrite H, IH.
  - exists (SelSlice s). split; [reflexivity|]. now apply slice_in_ok.
Qed.
Lemma rejects_resolve n (p : pel) : Rejects n p -> exists sa, sel_of p = Some sa /\ sel_resolve sa n = Err EException.
Proof.
  destruct 1 as [i H|l i Hi H|s H].
  - exists (SelInt i). split; [reflexivity|]. simpl. now rewrite (pos_norm_err n i H).
  - exists (SelList l). split; [simpl; now rewrite ck_ints_map|]. simpl. induction l as [|j l IH]; [destruct Hi|].
    simpl. destruct (norm_index n j) as [k|x] eqn:E.
    + simpl. destruct Hi as [->|Hi]; [rewrite (pos_norm_err n i H) in E; discriminate|]. now rewrite (IH Hi).
    + simpl. unfold norm_index in E. destruct (_ && _)%bool; congruence.
  - exists (SelSlice s). split; [reflexivity|]. now apply slice_out_err.
Qed.

(** ** Reading *)
Theorem extra_block_read s c (st : pstate) ci e R a b A B :
  Obj s c st -> At s ci e -> e_struct e = None -> e_symm e = false ->
  getitem zero s (num_env c) (pidx ci) st = Ok (RMat R) ->
  Selects (dm_nr R) a A -> Selects (dm_nc R) b B ->
  exists E, getitem zero s (num_env c) (pidx ci ++ [a; b]) st = Ok (RMat E) /\ dm_shape E = (length A, length B) /\
    forall x y p q, nth_error A x = Some p -> nth_error B y = Some q -> dm_at E (x, y) = dm_at R (p, q).
Proof.
  intros Ho Ha He Hs HR HA HB. destruct (selects_resolve _ _ _ HA) as (sa & Hsa & RA). destruct (selects_resolve _ _ _ HB) as (sb & Hsb & RB).
  exists (dm_sub R A B). split; [|split; [reflexivity|]].
  - rewrite (extra_read2 zero s c st ci e R a b sa sb Ho Ha He Hs Hsa Hsb HR). unfold dm_get2. rewrite RA. cbn [rbind]. rewrite RB. reflexivity.
  - intros x y p q Hp Hq. now rewrite sub_at, Hp, Hq.
Qed.

Theorem extra_block_read_err s c (st : pstate) ci e R a b :
  Obj s c st -> At s ci e -> e_struct e = None -> e_symm e = false ->
  getitem zero s (num_env c) (pidx ci) st = Ok (RMat R) ->
  (Rejects (dm_nr R) a /\ (Rejects (dm_nc R) b \/ exists B, Selects (dm_nc R) b B)) \/ ((exists A, Selects (dm_nr R) a A) /\ Rejects (dm_nc R) b) ->
  getitem zero s (num_env c) (pidx ci ++ [a; b]) st = Err EException.
Proof.
  intros Ho Ha He Hs HR [[HA HB]|[(A & HA) HB]].
  - destruct (rejects_resolve _ _ HA) as (sa & Hsa & RA).
    assert (exists sb, sel_of b = Some sb) as (sb & Hsb).
    { destruct HB as [HB|(B & HB)]; [destruct (rejects_resolve _ _ HB) as (sb & Hsb & _)|destruct (selects_resolve _ _ _ HB) as (sb & Hsb & _)]; eauto. }
    rewrite (extra_read2 zero s c st ci e R a b sa sb Ho Ha He Hs Hsa Hsb HR). unfold dm_get2. rewrite RA. reflexivity.
  - destruct (selects_resolve _ _ _ HA) as (sa & Hsa & RA). destruct (rejects_resolve _ _ HB) as (sb & Hsb & RB).
    rewrite (extra_read2 zero s c st ci e R a b sa sb Ho Ha He Hs Hsa Hsb HR). unfold dm_get2. rewrite RA. cbn [rbind]. rewrite RB. reflexivity.
Qed.

Theorem extra_linear_read s c (st : pstate) ci e R a K :
  Obj s c st -> At s ci e -> e_struct e = None -> e_symm e = false ->
  getitem zero s (num_env c) (pidx ci) st = Ok (RMat R) ->
  Selects (dm_nr R * dm_nc R) a K ->
  exists E, getitem zero s (num_env c) (pidx ci ++ [a]) st = Ok (RMat E) /\
    (dm_nr R <> 1 -> dm_shape E = (length K, 1) /\
       forall x p q, p < dm_nr R -> nth_error K x = Some (p + q * dm_nr R) -> dm_at E (x, 0) = dm_at R (p, q)) /\
    (dm_nr R = 1 -> dm_shape E = (1, length K) /\ forall x q, nth_error K x = Some q -> dm_at E (0, x) = dm_at R (0, q)).
Proof.
  intros Ho Ha He Hs HR HK. destruct (selects_resolve _ _ _ HK) as (sa & Hsa & RA).
  exists (dm_lin R K). split; [|split].
  - rewrite (extra_read1 zero s c st ci e R a sa Ho Ha He Hs Hsa HR). unfold dm_get1, dm_numel. rewrite RA. reflexivity.
  - intros Hn. unfold dm_lin. replace (dm_nr R =? 1) with false by (symmetry; now apply Nat.eqb_neq). cbn [andb]. split; [reflexivity|].
    intros x p q Hp Hx. rewrite dm_build_at. cbn [fst snd].
    assert (x < length K) by (apply nth_error_Some; congruence). replace (x <? length K) with true by (symmetry; now apply Nat.ltb_lt). cbn [andb Nat.ltb Nat.leb].
    rewrite (nth_error_nth _ _ 0 Hx). f_equal. f_equal; [rewrite Nat.mod_add, Nat.mod_small|rewrite Nat.div_add, Nat.div_small]; lia.
  - intros Hn. unfold dm_lin. rewrite Hn. cbn [Nat.eqb andb]. assert (D : forall q, q / 1 = q /\ q mod 1 = 0) by (intros q; split; [apply Nat.div_1_r|apply Nat.mod_1_r]).
    destruct (length K =? 1) eqn:El; cbn [negb].
    + apply Nat.eqb_eq in El. split; [now cbn; rewrite El|]. intros x q Hx.
      assert (x = 0) by (assert (x < length K) by (apply nth_error_Some; congruence); lia). subst x. rewrite dm_build_at. cbn [fst snd]. rewrite El. cbn [Nat.ltb Nat.leb andb].
      rewrite (nth_error_nth _ _ 0 Hx). now rewrite (proj1 (D q)), (proj2 (D q)).
    + split; [reflexivity|]. intros x q Hx. rewrite dm_build_at. cbn [fst snd].
      assert (x < length K) by (apply nth_error_Some; congruence). replace (x <? length K) with true by (symmetry; now apply Nat.ltb_lt). cbn [andb Nat.ltb Nat.leb].
      rewrite (nth_error_nth _ _ 0 Hx). now rewrite (proj1 (D q)), (proj2 (D q)).
Qed.
Theorem extra_linear_read_err s c (st : pstate) ci e R a :
  Obj s c st -> At s ci e -> e_struct e = None -> e_symm e = false ->
  getitem zero s (num_env c) (pidx ci) st = Ok (RMat R) -> Rejects (dm_nr R * dm_nc R) a ->
  getitem zero s (num_env c) (pidx ci ++ [a]) st = Err EException.
Proof.
  intros Ho Ha He Hs HR HK. destruct (rejects_resolve _ _ HK) as (sa & Hsa & RA).
  rewrite (extra_read1 zero s c st ci e R a sa Ho Ha He Hs Hsa HR). unfold dm_get1, dm_numel. rewrite RA. reflexivity.
Qed.

(** ** Writing *)
Lemma extra_set s c (st : pstate) ci e m ex i v M v' : Obj s c st -> At s ci e -> e_struct e = None -> e_symm e = false -> ex <> [] ->
  cmap_get ci (cs_map c) = Some m -> performExtraIndex (Some (info zero e)) false (RIdx m) ex = Ok (@RIdx T i) ->
  to_mtype v = Ok M -> vec_set zero (ps_master st) i M = Ok v' ->
  setitem zero s (num_env c) (pidx ci ++ ex) v st = (with_master st v', Ok RNone).
Proof.
  intros Ho Ha He Hs Hne Hm Hp HM Hv. rewrite (setitem_extra zero s c st ci e ex v Ha (ob_wf _ _ _ Ho) He Hne).
  cbn [dispatch app]. unfold mwrap, setter, mbind, mlift. rewrite HM. cbn [num_env en_map extra]. rewrite Hm, Hp.
  cbn [is_symm info ei_symm]. rewrite Hs. unfold master_set. cbn [en_kind num_env]. rewrite Hv. reflexivity.
Qed.
Lemma extra_set_err s c (st : pstate) ci e m ex i v M : Obj s c st -> At s ci e -> e_struct e = None -> e_symm e = false -> ex <> [] ->
  cmap_get ci (cs_map c) = Some m -> performExtraIndex (Some (info zero e)) false (RIdx m) ex = Ok (@RIdx T i) ->
  to_mtype v = Ok M -> vec_set zero (ps_master st) i M = Err EException ->
  setitem zero s (num_env c) (pidx ci ++ ex) v st = (st, Err EException).
Proof.
  intros Ho Ha He Hs Hne Hm Hp HM Hv. rewrite (setitem_extra zero s c st ci e ex v Ha (ob_wf _ _ _ Ho) He Hne).
  cbn [dispatch app]. unfold mwrap, setter, mbind, mlift. rewrite HM. cbn [num_env en_map extra]. rewrite Hm, Hp.
  cbn [is_symm info ei_symm]. rewrite Hs. unfold master_set. cbn [en_kind num_env]. rewrite Hv. reflexivity.
Qed.

(** A matrix of the shape of the block goes to the block, element by element; elements of [M] outside its pattern count as zero. *)
Theorem extra_block_write s c (st : pstate) ci e R a b A B v M :
  Obj s c st -> At s ci e -> e_struct e = None -> e_symm e = false ->
  getitem zero s (num_env c) (pidx ci) st = Ok (RMat R) ->
  Selects (dm_nr R) a A -> Selects (dm_nc R) b B -> NoDup A -> NoDup B ->
  pay_ok v -> to_mtype v = Ok M -> dm_shape M = (length A, length B) ->
  exists st' r R', setitem zero s (num_env c) (pidx ci ++ [a; b]) v st = (st', Ok r) /\
    getitem zero s (num_env c) (pidx ci) st' = Ok (RMat R') /\ dm_sp R' = dm_sp R /\
    (forall x y p q, nth_error A x = Some p -> nth_error B y = Some q -> In (p, q) (sp_pat (dm_sp R)) -> dm_at R' (p, q) = Some (dm_val zero M (x, y))) /\
    (forall p q, ~ (In p A /\ In q B) -> dm_at R' (p, q) = dm_at R (p, q)) /\
    (forall ii, i_get zero s (pidx ci) = Ok ii -> unchanged (positions ii) st st').
Proof.
  intros Ho Ha He Hs HR HA HB HdA HdB Hv HM Hsh. pose proof (ob_wf _ _ _ Ho) as Hw. pose proof (ob_built _ _ _ Ho) as Hc.
  destruct (selects_resolve _ _ _ HA) as (sa & Hsa & RA). destruct (selects_resolve _ _ _ HB) as (sb & Hsb & RB).
  destruct (map_get_leaf s c ci e Hw Hc (At_Leaf _ _ _ Ha He)) as (m & Hm & _).
  destruct (map_ok s c ci m Hw Hc Hm) as (_ & Hok & Hnd & Hb & _).
  rewrite (getitem_at zero s c st ci e m Ho Ha Hs Hm) in HR. injection HR as <-.
  change (dm_nr (vals zero (ps_master st) m)) with (dm_nr m) in *. change (dm_nc (vals zero (ps_master st) m)) with (dm_nc m) in *.
  pose proof (to_mtype_ok v M Hv HM) as HMok. injection Hsh as Hr Hq.
  assert (Hib : inb (ps_master st) m) by (unfold inb; now rewrite (ob_len _ _ _ Ho)).
  set (i := dm_sub m A B). assert (Hi : DmOk i) by apply dm_build_ok. assert (Hii : inb (ps_master st) i) by (now apply sub_inb).
  assert (Hni : NoDup (dm_nz i)) by (now apply sub_nodup).
  destruct (vec_set_ok zero (ps_master st) i M Hi HMok Hii) as [[_ E]|[Hf _]].
  2: { exfalso. apply Hf. right. left. unfold dm_shape. rewrite Hr, Hq. reflexivity. }
  assert (Hpei : performExtraIndex (Some (info zero e)) false (RIdx m) [a; b] = Ok (@RIdx T i)).
  { rewrite (pei2 _ m a b sa sb Hsa Hsb). unfold dm_get2. rewrite RA. cbn [rbind]. rewrite RB. reflexivity. }
  pose proof (extra_set s c st ci e m [a; b] i v M _ Ho Ha He Hs ltac:(discriminate) Hm Hpei HM E) as Hset.
  set (v' := vec_set_list _ _ _) in *.
  assert (HL : length v' = length (ps_master st)) by apply vec_set_list_length.
  assert (Ho' : Obj s c (with_master st v')) by (now apply Obj_with_master).
  exists (with_master st v'), RNone, (vals zero v' m). split; [exact Hset|]. split; [exact (getitem_at zero s c _ ci e m Ho' Ha Hs Hm)|]. split; [reflexivity|].
  split; [|split].
  - intros x y p q Hx Hy Hin. destruct (dm_at_Some m (p, q) Hok Hin) as (k & Hk). unfold vals. rewrite dm_at_map, Hk. cbn [option_map]. f_equal.
    assert (Hp : dm_at i (x, y) = Some k) by (unfold i; now rewrite sub_at, Hx, Hy).
    unfold v'. rewrite (set_at zero _ i _ _ _ Hi Hni Hii Hp). unfold fit.
    destruct (dm_is_scalar M) eqn:Es.
    + unfold dm_is_scalar in Es. apply andb_true_iff in Es as [E1 E2]. apply Nat.eqb_eq in E1, E2.
      assert (x < length A) by (apply nth_error_Some; congruence). assert (y < length B) by (apply nth_error_Some; congruence).
      f_equal. f_equal; lia.
    + change (sp_nr (dm_sp i)) with (length A). change (sp_nc (dm_sp i)) with (length B). rewrite Hr, Hq, !Nat.eqb_refl. reflexivity.
  - intros p q Hn. unfold vals. rewrite !dm_at_map. destruct (dm_at m (p, q)) as [k|] eqn:Hk; [|reflexivity]. cbn [option_map]. f_equal.
    unfold v'. apply set_other. intros Hin. apply (nz_at i k Hi) in Hin as (z & Hz). apply sub_at_inv in Hz as (r' & c' & H1 & H2 & H3).
    pose proof (nz_inj m _ _ _ Hok Hnd Hk H3) as [= <- <-]. apply Hn. split; eapply nth_error_In; eauto.
  - intros ii Hgi. rewrite (i_get_at zero s c ci e Hw Hc Ha), Hm in Hgi. injection Hgi as <-. split; [exact HL|].
    intros k Hk. apply vec_set_list_other. intros Hin. apply Hk. eapply dm_sub_nz; eauto.
Qed.

(** A scalar fills the block, also when rows or columns are selected repeatedly. *)
Theorem extra_block_fill s c (st : pstate) ci e R a b A B v M :
  Obj s c st -> At s ci e -> e_struct e = None -> e_symm e = false ->
  getitem zero s (num_env c) (pidx ci) st = Ok (RMat R) ->
  Selects (dm_nr R) a A -> Selects (dm_nc R) b B ->
  pay_ok v -> to_mtype v = Ok M -> dm_shape M = (1, 1) ->
  exists st' r R', setitem zero s (num_env c) (pidx ci ++ [a; b]) v st = (st', Ok r) /\
    getitem zero s (num_env c) (pidx ci) st' = Ok (RMat R') /\ dm_sp R' = dm_sp R /\
    (forall p q, In p A -> In q B -> In (p, q) (sp_pat (dm_sp R)) -> dm_at R' (p, q) = Some (dm_val zero M (0, 0))) /\
    (forall p q, ~ (In p A /\ In q B) -> dm_at R' (p, q) = dm_at R (p, q)) /\
    (forall ii, i_get zero s (pidx ci) = Ok ii -> unchanged (positions ii) st st').
Proof.
  intros Ho Ha He Hs HR HA HB Hv HM Hsh. pose proof (ob_wf _ _ _ Ho) as Hw. pose proof (ob_built _ _ _ Ho) as Hc.
  destruct (selects_resolve _ _ _ HA) as (sa & Hsa & RA). destruct (selects_resolve _ _ _ HB) as (sb & Hsb & RB).
  destruct (map_get_leaf s c ci e Hw Hc (At_Leaf _ _ _ Ha He)) as (m & Hm & _).
  destruct (map_ok s c ci m Hw Hc Hm) as (_ & Hok & Hnd & Hb & _).
  rewrite (getitem_at zero s c st ci e m Ho Ha Hs Hm) in HR. injection HR as <-.
  change (dm_nr (vals zero (ps_master st) m)) with (dm_nr m) in *. change (dm_nc (vals zero (ps_master st) m)) with (dm_nc m) in *.
  pose proof (to_mtype_ok v M Hv HM) as HMok.
  assert (Hib : inb (ps_master st) m) by (unfold inb; now rewrite (ob_len _ _ _ Ho)).
  set (i := dm_sub m A B). assert (Hi : DmOk i) by apply dm_build_ok. assert (Hii : inb (ps_master st) i) by (now apply sub_inb).
  assert (Es : dm_is_scalar M = true) by (injection Hsh as E1 E2; unfold dm_is_scalar; now rewrite E1, E2).
  destruct (set_scalar zero (ps_master st) i M Hi Hii HMok Es) as (v' & E & HL & HW & HU).
  assert (Hpei : performExtraIndex (Some (info zero e)) false (RIdx m) [a; b] = Ok (@RIdx T i)).
  { rewrite (pei2 _ m a b sa sb Hsa Hsb). unfold dm_get2. rewrite RA. cbn [rbind]. rewrite RB. reflexivity. }
  pose proof (extra_set s c st ci e m [a; b] i v M _ Ho Ha He Hs ltac:(discriminate) Hm Hpei HM E) as Hset.
  assert (Ho' : Obj s c (with_master st v')) by (now apply Obj_with_master).
  exists (with_master st v'), RNone, (vals zero v' m). split; [exact Hset|]. split; [exact (getitem_at zero s c _ ci e m Ho' Ha Hs Hm)|]. split; [reflexivity|].
  split; [|split].
  - intros p q Hp Hq Hin. apply In_nth_error in Hp as (x & Hx), Hq as (y & Hy).
    destruct (dm_at_Some m (p, q) Hok Hin) as (k & Hk). unfold vals. rewrite dm_at_map, Hk. cbn [option_map]. f_equal.
    apply HW. apply (dm_at_nz i (x, y)). unfold i. now rewrite sub_at, Hx, Hy.
  - intros p q Hn. unfold vals. rewrite !dm_at_map. destruct (dm_at m (p, q)) as [k|] eqn:Hk; [|reflexivity]. cbn [option_map]. f_equal.
    apply HU. intros Hin. apply (nz_at i k Hi) in Hin as (z & Hz). apply sub_at_inv in Hz as (r' & c' & H1 & H2 & H3).
    pose proof (nz_inj m _ _ _ Hok Hnd Hk H3) as [= <- <-]. apply Hn. split; eapply nth_error_In; eauto.
  - intros ii Hgi. rewrite (i_get_at zero s c ci e Hw Hc Ha), Hm in Hgi. injection Hgi as <-. split; [exact HL|].
    intros k Hk. apply HU. intros Hin. apply Hk. eapply dm_sub_nz; eauto.
Qed.

(** Any other shape is refused and nothing is written. *)
Theorem extra_block_misfit s c (st : pstate) ci e R a b A B v M :
  Obj s c st -> At s ci e -> e_struct e = None -> e_symm e = false ->
  getitem zero s (num_env c) (pidx ci) st = Ok (RMat R) ->
  Selects (dm_nr R) a A -> Selects (dm_nc R) b B -> pay_ok v -> to_mtype v = Ok M ->
  dm_shape M <> (1, 1) -> dm_shape M <> (length A, length B) ->
  (dm_shape M = (length B, length A) -> length A <> 1 /\ length B <> 1) ->
  setitem zero s (num_env c) (pidx ci ++ [a; b]) v st = (st, Err EException).
Proof.
  intros Ho Ha He Hs HR HA HB Hv HM H1 H2 H3. pose proof (ob_wf _ _ _ Ho) as Hw. pose proof (ob_built _ _ _ Ho) as Hc.
  destruct (selects_resolve _ _ _ HA) as (sa & Hsa & RA). destruct (selects_resolve _ _ _ HB) as (sb & Hsb & RB).
  destruct (map_get_leaf s c ci e Hw Hc (At_Leaf _ _ _ Ha He)) as (m & Hm & _).
  destruct (map_ok s c ci m Hw Hc Hm) as (_ & Hok & Hnd & Hb & _).
  rewrite (getitem_at zero s c st ci e m Ho Ha Hs Hm) in HR. injection HR as <-.
  change (dm_nr (vals zero (ps_master st) m)) with (dm_nr m) in *. change (dm_nc (vals zero (ps_master st) m)) with (dm_nc m) in *.
  pose proof (to_mtype_ok v M Hv HM) as HMok.
  assert (Hib : inb (ps_master st) m) by (unfold inb; now rewrite (ob_len _ _ _ Ho)).
  apply (extra_set_err s c st ci e m [a; b] (dm_sub m A B) v M Ho Ha He Hs ltac:(discriminate) Hm); auto.
  { rewrite (pei2 _ m a b sa sb Hsa Hsb). unfold dm_get2. rewrite RA. cbn [rbind]. rewrite RB. reflexivity. }
  destruct (vec_set_ok zero (ps_master st) (dm_sub m A B) M (dm_build_ok _ _ _) HMok (sub_inb _ m A B Hib)) as [[Hf _]|[_ E]]; [|exact E].
  exfalso. unfold fits in Hf. change (sp_nr (dm_sp (dm_sub m A B))) with (length A) in Hf. change (sp_nc (dm_sp (dm_sub m A B))) with (length B) in Hf.
  destruct Hf as [Hf|[Hf|[Hf Hmin]]]; [contradiction|contradiction|]. destruct (H3 Hf). lia.
Qed.

(** ** Linear writes *)
Lemma lin_at (m : dm nat) K x k : nth_error K x = Some k ->
  exists p, dm_at (dm_lin m K) p = dm_at m (k mod dm_nr m, k / dm_nr m) /\
    ((p = (x, 0) /\ dm_shape (dm_lin m K) = (length K, 1)) \/ (p = (0, x) /\ dm_shape (dm_lin m K) = (1, length K))).
Proof.
  intros Hx. assert (Hl : x < length K) by (apply nth_error_Some; congruence). apply Nat.ltb_lt in Hl. unfold dm_lin. destruct (_ && _).
  - exists (0, x). split; [|right; split; reflexivity]. rewrite dm_build_at. cbn [fst snd]. rewrite Hl. cbn. now rewrite (nth_error_nth _ _ 0 Hx).
  - exists (x, 0). split; [|left; split; reflexivity]. rewrite dm_build_at. cbn [fst snd]. rewrite Hl. cbn. now rewrite (nth_error_nth _ _ 0 Hx).
Qed.
Lemma lin_at_inv (m : dm nat) K p j : dm_at (dm_lin m K) p = Some j ->
  exists x k, nth_error K x = Some k /\ dm_at m (k mod dm_nr m, k / dm_nr m) = Some j /\
    ((p = (x, 0) /\ dm_shape (dm_lin m K) = (length K, 1)) \/ (p = (0, x) /\ dm_shape (dm_lin m K) = (1, length K))).
Proof.
  destruct p as [i q]. unfold dm_lin. destruct (_ && _); rewrite dm_build_at; cbn [fst snd].
  - destruct (i <? 1) eqn:E1; [|discriminate]. destruct (q <? length K) eqn:E2; [|discriminate]. cbn [andb]. apply Nat.ltb_lt in E1, E2. intros H.
    destruct (nth_error K q) as [k|] eqn:Ek; [|apply nth_error_None in Ek; lia]. rewrite (nth_error_nth _ _ 0 Ek) in H. exists q, k.
    split; [exact Ek|]. split; [exact H|]. right. split; [f_equal; lia|reflexivity].
  - destruct (i <? length K) eqn:E1; [|discriminate]. destruct (q <? 1) eqn:E2; [|discriminate]. cbn [andb]. apply Nat.ltb_lt in E1, E2. intros H.
    destruct (nth_error K i) as [k|] eqn:Ek; [|apply nth_error_None in Ek; lia]. rewrite (nth_error_nth _ _ 0 Ek) in H. exists i, k.
    split; [exact Ek|]. split; [exact H|]. left. split; [f_equal; lia|reflexivity].
Qed.
Lemma lin_inb (v : list T) m K : inb v m -> inb v (dm_lin m K).
Proof.
  unfold inb. rewrite !Forall_forall. intros H j Hj. apply H. apply (nz_at _ j) in Hj as (p & Hp); [|unfold dm_lin; destruct (_ && _); apply dm_build_ok].
  apply lin_at_inv in Hp as (x & k & _ & Hk & _). eapply dm_at_nz; eauto.
Qed.
Lemma lin_nodup (m : dm nat) K : DmOk m -> NoDup (dm_nz m) -> NoDup K -> NoDup (dm_nz (dm_lin m K)).
Proof.
  intros Hm Hnd HK. assert (Hok : DmOk (dm_lin m K)) by (unfold dm_lin; destruct (_ && _); apply dm_build_ok).
  apply NoDup_nth_error. intros i j Hi E. destruct Hok as [Hs Hl]. unfold sp_nnz in Hl.
  destruct (nth_error (sp_pat (dm_sp (dm_lin m K))) i) as [p|] eqn:Ei; [|apply nth_error_None in Ei; lia].
  destruct (nth_error (dm_nz (dm_lin m K)) i) as [k|] eqn:Ek; [|apply nth_error_None in Ek; lia].
  assert (Hj : j < length (dm_nz (dm_lin m K))) by (apply nth_error_Some; congruence).
  destruct (nth_error (sp_pat (dm_sp (dm_lin m K))) j) as [q|] eqn:Ej; [|apply nth_error_None in Ej; lia].
  pose proof (dm_at_nth _ i p (conj Hs Hl) Ei) as Hp. pose proof (dm_at_nth _ j q (conj Hs Hl) Ej) as Hq. rewrite Ek in Hp. rewrite <- E in Hq.
  apply lin_at_inv in Hp as (x & k1 & H1 & H2 & H3), Hq as (y & k2 & H1' & H2' & H3').
  pose proof (nz_inj m _ _ _ Hm Hnd H2 H2') as [= F1 F2]. assert (k1 = k2).
  { destruct (Nat.eq_dec (dm_nr m) 0) as [Z|Z].
    - exfalso. pose proof (dm_at_In _ _ _ H2) as Hin. destruct Hm as [[_ Hf] _]. rewrite Forall_forall in Hf. specialize (Hf _ Hin). unfold dm_nr in Z. cbn [fst snd] in Hf. lia.
    - rewrite (Nat.div_mod k1 (dm_nr m) Z), (Nat.div_mod k2 (dm_nr m) Z), F1, F2. reflexivity. }
  subst k2. pose proof (nth_error_inj K _ _ _ HK H1 H1') as ->.
  assert (p = q).
  { destruct H3 as [[-> S]|[-> S]], H3' as [[-> S']|[-> S']]; auto.
    - assert (Hy : y < length K) by (apply nth_error_Some; congruence). rewrite S in S'. injection S' as S1 S2. f_equal; lia.
    - assert (Hy : y < length K) by (apply nth_error_Some; congruence). rewrite S in S'. injection S' as S1 S2. f_equal; lia. }
  subst q. exact (nth_error_inj _ _ _ _ (SpOk_NoDup _ Hs) Ei Ej).
Qed.

(** [s[ci, K] = M]: the elements of a vector [M] (row or column) go to the elements of [s[ci]] counted down the columns. *)
Theorem extra_linear_write s c (st : pstate) ci e R a K v M :
  Obj s c st -> At s ci e -> e_struct e = None -> e_symm e = false ->
  getitem zero s (num_env c) (pidx ci) st = Ok (RMat R) ->
  Selects (dm_nr R * dm_nc R) a K -> NoDup K -> K <> [] -> pay_ok v -> to_mtype v = Ok M ->
  dm_shape M = (length K, 1) \/ dm_shape M = (1, length K) ->
  exists st' r R', setitem zero s (num_env c) (pidx ci ++ [a]) v st = (st', Ok r) /\
    getitem zero s (num_env c) (pidx ci) st' = Ok (RMat R') /\ dm_sp R' = dm_sp R /\
    (forall x p q, p < dm_nr R -> nth_error K x = Some (p + q * dm_nr R) -> In (p, q) (sp_pat (dm_sp R)) ->
       dm_at R' (p, q) = Some (dm_val zero M (if dm_nc M =? 1 then (x, 0) else (0, x)))) /\
    (forall p q, p < dm_nr R -> ~ In (p + q * dm_nr R) K -> dm_at R' (p, q) = dm_at R (p, q)) /\
    (forall ii, i_get zero s (pidx ci) = Ok ii -> unchanged (positions ii) st st').
Proof.
  intros Ho Ha He Hs HR HK HdK HKn Hv HM Hsh. pose proof (ob_wf _ _ _ Ho) as Hw. pose proof (ob_built _ _ _ Ho) as Hc.
  destruct (selects_resolve _ _ _ HK) as (sa & Hsa & RA).
  destruct (map_get_leaf s c ci e Hw Hc (At_Leaf _ _ _ Ha He)) as (m & Hm & _).
  destruct (map_ok s c ci m Hw Hc Hm) as (_ & Hok & Hnd & Hb & _).
  rewrite (getitem_at zero s c st ci e m Ho Ha Hs Hm) in HR. injection HR as <-.
  change (dm_nr (vals zero (ps_master st) m)) with (dm_nr m) in *. change (dm_nc (vals zero (ps_master st) m)) with (dm_nc m) in *.
  change (dm_sp (vals zero (ps_master st) m)) with (dm_sp m) in *.
  pose proof (to_mtype_ok v M Hv HM) as HMok.
  assert (Hib : inb (ps_master st) m) by (unfold inb; now rewrite (ob_len _ _ _ Ho)).
  assert (HK0 : 0 < length K) by (destruct K; [contradiction|simpl; lia]).
  set (i := dm_lin m K). assert (Hi : DmOk i) by (unfold i, dm_lin; destruct (_ && _); apply dm_build_ok).
  assert (Hii : inb (ps_master st) i) by (now apply lin_inb). assert (Hni : NoDup (dm_nz i)) by (now apply lin_nodup).
  assert (Hshi : (sp_nr (dm_sp i) = length K /\ sp_nc (dm_sp i) = 1) \/ (sp_nr (dm_sp i) = 1 /\ sp_nc (dm_sp i) = length K)).
  { unfold i, dm_lin; destruct (_ && _); [right|left]; split; reflexivity. }
  destruct (vec_set_ok zero (ps_master st) i M Hi HMok Hii) as [[_ E]|[Hf _]].
  2: { exfalso. apply Hf. unfold fits. destruct Hshi as [[-> ->]|[-> ->]]; destruct Hsh as [-> | ->]; auto; right; right; split; auto; lia. }
  assert (Hpei : performExtraIndex (Some (info zero e)) false (RIdx m) [a] = Ok (@RIdx T i)).
  { rewrite (pei1 _ m a sa Hsa). unfold dm_get1, dm_numel. rewrite RA. reflexivity. }
  pose proof (extra_set s c st ci e m [a] i v M _ Ho Ha He Hs ltac:(discriminate) Hm Hpei HM E) as Hset.
  set (v' := vec_set_list _ _ _) in *.
  assert (HL : length v' = length (ps_master st)) by apply vec_set_list_length.
  assert (Ho' : Obj s c (with_master st v')) by (now apply Obj_with_master).
  exists (with_master st v'), RNone, (vals zero v' m). split; [exact Hset|]. split; [exact (getitem_at zero s c _ ci e m Ho' Ha Hs Hm)|]. split; [reflexivity|].
  split; [|split].
  - intros x p q Hlt Hx Hin. destruct (dm_at_Some m (p, q) Hok Hin) as (k & Hk). unfold vals. rewrite dm_at_map, Hk. cbn [option_map]. f_equal.
    destruct (lin_at m K x _ Hx) as (z & Hz & Hzs). rewrite Nat.mod_add, Nat.div_add, Nat.mod_small, Nat.div_small, Nat.add_0_l, Hk in Hz by lia.
    assert (Hxl : x < length K) by (apply nth_error_Some; congruence).
    unfold v'. fold i in Hz. rewrite (set_at zero _ i _ _ _ Hi Hni Hii Hz). unfold fit, dm_is_scalar. fold i in Hzs.
    unfold dm_shape in Hsh, Hzs. unfold dm_nr, dm_nc in Hzs.
    destruct Hzs as [[-> Z]|[-> Z]]; injection Z as Z1 Z2; rewrite Z1, Z2; destruct Hsh as [Hsh|Hsh]; injection Hsh as S1 S2; rewrite S1, S2.
    all: repeat match goal with |- context [?a =? ?b] => destruct (Nat.eqb_spec a b) end; cbn [andb fst snd]; try lia; try reflexivity; f_equal; f_equal; lia.
  - intros p q Hlt Hn. unfold vals. rewrite !dm_at_map. destruct (dm_at m (p, q)) as [k|] eqn:Hk; [|reflexivity]. cbn [option_map]. f_equal.
    unfold v'. apply set_other. intros Hin. apply (nz_at i k Hi) in Hin as (z & Hz). apply lin_at_inv in Hz as (x & j & H1 & H2 & _).
    pose proof (nz_inj m _ _ _ Hok Hnd Hk H2) as [= -> ->]. apply Hn. apply nth_error_In in H1.
    replace (j mod dm_nr m + j / dm_nr m * dm_nr m) with j; [exact H1|]. pose proof (Nat.div_mod j (dm_nr m)). lia.
  - intros ii Hgi. rewrite (i_get_at zero s c ci e Hw Hc Ha), Hm in Hgi. injection Hgi as <-. split; [exact HL|].
    intros k Hk. apply vec_set_list_other. intros Hin. apply Hk. apply (nz_at i k Hi) in Hin as (z & Hz). apply lin_at_inv in Hz as (x & j & _ & H2 & _).
    eapply dm_at_nz; eauto.
Qed.

(** [s[ci, K] = x] with a scalar. *)
Theorem extra_linear_fill s c (st : pstate) ci e R a K v M :
  Obj s c st -> At s ci e -> e_struct e = None -> e_symm e = false ->
  getitem zero s (num_env c) (pidx ci) st = Ok (RMat R) ->
  Selects (dm_nr R * dm_nc R) a K -> pay_ok v -> to_mtype v = Ok M -> dm_shape M = (1, 1) ->
  exists st' r R', setitem zero s (num_env c) (pidx ci ++ [a]) v st = (st', Ok r) /\
    getitem zero s (num_env c) (pidx ci) st' = Ok (RMat R') /\ dm_sp R' = dm_sp R /\
    (forall p q, p < dm_nr R -> In (p + q * dm_nr R) K -> In (p, q) (sp_pat (dm_sp R)) -> dm_at R' (p, q) = Some (dm_val zero M (0, 0))) /\
    (forall p q, p < dm_nr R -> ~ In (p + q * dm_nr R) K -> dm_at R' (p, q) = dm_at R (p, q)) /\
    (forall ii, i_get zero s (pidx ci) = Ok ii -> unchanged (positions ii) st st').
Proof.
  intros Ho Ha He Hs HR HK Hv HM Hsh. pose proof (ob_wf _ _ _ Ho) as Hw. pose proof (ob_built _ _ _ Ho) as Hc.
  destruct (selects_resolve _ _ _ HK) as (sa & Hsa & RA).
  destruct (map_get_leaf s c ci e Hw Hc (At_Leaf _ _ _ Ha He)) as (m & Hm & _).
  destruct (map_ok s c ci m Hw Hc Hm) as (_ & Hok & Hnd & Hb & _).
  rewrite (getitem_at zero s c st ci e m Ho Ha Hs Hm) in HR. injection HR as <-.
  change (dm_nr (vals zero (ps_master st) m)) with (dm_nr m) in *. change (dm_nc (vals zero (ps_master st) m)) with (dm_nc m) in *.
  change (dm_sp (vals zero (ps_master st) m)) with (dm_sp m) in *.
  pose proof (to_mtype_ok v M Hv HM) as HMok.
  assert (Hib : inb (ps_master st) m) by (unfold inb; now rewrite (ob_len _ _ _ Ho)).
  set (i := dm_lin m K). assert (Hi : DmOk i) by (unfold i, dm_lin; destruct (_ && _); apply dm_build_ok).
  assert (Hii : inb (ps_master st) i) by (now apply lin_inb).
  assert (Es : dm_is_scalar M = true) by (injection Hsh as E1 E2; unfold dm_is_scalar; now rewrite E1, E2).
  destruct (set_scalar zero (ps_master st) i M Hi Hii HMok Es) as (v' & E & HL & HW & HU).
  assert (Hpei : performExtraIndex (Some (info zero e)) false (RIdx m) [a] = Ok (@RIdx T i)).
  { rewrite (pei1 _ m a sa Hsa). unfold dm_get1, dm_numel. rewrite RA. reflexivity. }
  pose proof (extra_set s c st ci e m [a] i v M _ Ho Ha He Hs ltac:(discriminate) Hm Hpei HM E) as Hset.
  assert (Ho' : Obj s c (with_master st v')) by (now apply Obj_with_master).
  exists (with_master st v'), RNone, (vals zero v' m). split; [exact Hset|]. split; [exact (getitem_at zero s c _ ci e m Ho' Ha Hs Hm)|]. split; [reflexivity|].
  split; [|split].
  - intros p q Hlt Hx Hin. destruct (dm_at_Some m (p, q) Hok Hin) as (k & Hk). unfold vals. rewrite dm_at_map, Hk. cbn [option_map]. f_equal.
    apply In_nth_error in Hx as (x & Hx). destruct (lin_at m K x _ Hx) as (z & Hz & _).
    rewrite Nat.mod_add, Nat.div_add, Nat.mod_small, Nat.div_small, Nat.add_0_l, Hk in Hz by lia.
    apply HW. eapply dm_at_nz; eauto.
  - intros p q Hlt Hn. unfold vals. rewrite !dm_at_map. destruct (dm_at m (p, q)) as [k|] eqn:Hk; [|reflexivity]. cbn [option_map]. f_equal.
    apply HU. intros Hin. apply (nz_at i k Hi) in Hin as (z & Hz). apply lin_at_inv in Hz as (x & j & H1 & H2 & _).
    pose proof (nz_inj m _ _ _ Hok Hnd Hk H2) as [= -> ->]. apply Hn. apply nth_error_In in H1.
    replace (j mod dm_nr m + j / dm_nr m * dm_nr m) with j; [exact H1|]. pose proof (Nat.div_mod j (dm_nr m)). lia.
  - intros ii Hgi. rewrite (i_get_at zero s c ci e Hw Hc Ha), Hm in Hgi. injection Hgi as <-. split; [exact HL|].
    intros k Hk. apply HU. intros Hin. apply Hk. apply (nz_at i k Hi) in Hin as (z & Hz). apply lin_at_inv in Hz as (x & j & _ & H2 & _).
    eapply dm_at_nz; eauto.
Qed.
End P.
