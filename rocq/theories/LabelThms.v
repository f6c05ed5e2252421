(** Labels identify the components; canonical indices used as power indices. *)
From Coq Require Import Ascii DecimalString Decimal DecimalZ DecimalFacts Permutation Sorted.
From Verif Require Import PyBase IndexModel DMModel StructModel StructSpec PowerModel PowerSpec LabelModel LabelSpec
  IndexProofs StructProofs LayoutProofs LayoutThms LayoutExamples DMProofs PowerProofs PowerThms SliceProofs PowerThms2 PowerThms3 PowerThms4 PowerThms5.
Open Scope nat_scope.

(** ** Decimal strings *)

Lemma no_comma_app a b : no_comma (String.append a b) <-> no_comma a /\ no_comma b.
Proof. induction a as [|x a IH]; simpl; [tauto|]. rewrite IH. tauto. Qed.

Lemma uint_no_comma u : no_comma (NilEmpty.string_of_uint u).
Proof. induction u; simpl; auto; split; auto; discriminate. Qed.
Lemma int_no_comma i : no_comma (NilZero.string_of_int i).
Proof.
  destruct i as [u|u]; simpl; [|split; [discriminate|]]; unfold NilZero.string_of_uint; destruct u; try apply uint_no_comma; simpl; repeat split; discriminate.
Qed.
Lemma str_int_inj i j : NilZero.string_of_int (Z.to_int i) = NilZero.string_of_int (Z.to_int j) -> i = j.
Proof.
  intros H.
  assert (N : forall z, Z.to_int z <> Pos Nil /\ Z.to_int z <> Neg Nil).
  { intros z. destruct z as [|p|p]; simpl; split; try discriminate; intros [= E]; exact (DecimalPos.Unsigned.to_uint_nonnil p E). }
  pose proof (NilZero.isi (Z.to_int i) (proj1 (N i)) (proj2 (N i))) as Hi.
  pose proof (NilZero.isi (Z.to_int j) (proj1 (N j)) (proj2 (N j))) as Hj.
  rewrite H in Hi. rewrite Hi in Hj. injection Hj as Hj. rewrite <- (DecimalZ.of_to i), <- (DecimalZ.of_to j). now rewrite Hj.
Qed.

(** ** Joining with commas *)
Lemma app_sep a b r r' : no_comma a -> no_comma b -> (r = EmptyString \/ exists q, r = String "," q) -> (r' = EmptyString \/ exists q, r' = String "," q) ->
  String.append a r = String.append b r' -> a = b /\ r = r'.
Proof.
  revert b. induction a as [|x a IH]; intros [|y b] Ha Hb Hr Hr' E; simpl in *.
  - auto.
  - subst r. destruct Hr as [Hr|[q Hr]]; [discriminate|]. injection Hr as -> _. destruct Hb as [Hb _]. congruence.
  - subst r'. destruct Hr' as [Hr'|[q Hr']]; [discriminate|]. injection Hr' as -> _. destruct Ha as [Ha _]. congruence.
  - injection E as -> E. destruct (IH b (proj2 Ha) (proj2 Hb) Hr Hr' E) as [-> ->]. auto.
Qed.

Fixpoint tail_join (l : list string) : string :=
  match l with [] => EmptyString | x :: l' => String "," (String.append x (tail_join l')) end.
Lemma concat_tail x l : String.concat "," (x :: l) = String.append x (tail_join l).
Proof.
  revert x. induction l as [|y l IH]; intros x; [simpl; now induction x as [|a x IHx]; simpl; [|rewrite <- IHx]|].
  change (String.concat "," (x :: y :: l)) with (String.append x (String.append "," (String.concat "," (y :: l)))).
  rewrite IH. reflexivity.
Qed.
Lemma tail_join_sep l : tail_join l = EmptyString \/ exists q, tail_join l = String "," q.
Proof. destruct l; simpl; eauto. Qed.
Lemma tail_join_inj l m : Forall no_comma l -> Forall no_comma m -> tail_join l = tail_join m -> l = m.
Proof.
  revert m. induction l as [|x l IH]; intros [|y m] Hl Hm E; simpl in E; try discriminate; [reflexivity|].
  inversion Hl; inversion Hm; subst. injection E as E.
  apply app_sep in E as [-> E]; auto using tail_join_sep. f_equal. auto.
Qed.
Lemma concat_inj l m : l <> [] -> m <> [] -> Forall no_comma l -> Forall no_comma m ->
  String.concat "," l = String.concat "," m -> l = m.
Proof.
  destruct l as [|x l]; [contradiction|]. destruct m as [|y m]; [contradiction|]. intros _ _ Hl Hm. rewrite !concat_tail. intros E.
  inversion Hl; inversion Hm; subst. apply app_sep in E as [-> E]; auto using tail_join_sep. f_equal. now apply tail_join_inj.
Qed.

Lemma append_inj_r a b c : String.append a c = String.append b c -> a = b.
Proof.
  revert b. induction a as [|x a IH]; intros [|y b] E; simpl in E; auto.
  - exfalso. assert (L : String.length c = String.length (String y (String.append b c))) by (now rewrite <- E).
    simpl in L. assert (L2 : forall u v, String.length (String.append u v) = String.length u + String.length v) by (induction u; simpl; auto).
    rewrite L2 in L. lia.
  - exfalso. assert (L : String.length c = String.length (String x (String.append a c))) by (now rewrite E).
    simpl in L. assert (L2 : forall u v, String.length (String.append u v) = String.length u + String.length v) by (induction u; simpl; auto).
    rewrite L2 in L. lia.
  - injection E as -> E. f_equal. auto.
Qed.

(** ** Strings of canonical indices *)
Lemma str_KI_inj l m : map str_ck (map KI l) = map str_ck (map KI m) -> l = m.
Proof.
  revert m. induction l as [|x l IH]; intros [|y m] E; simpl in E; try discriminate; [reflexivity|].
  injection E as E1 E2. apply str_int_inj in E1. subst. f_equal. auto.
Qed.

Lemma Leaf_comma s ci e : CommaFree s -> Leaf s ci e -> Forall no_comma (map str_ck ci).
Proof.
  intros Hc Hl. revert Hc. induction Hl as [s e idx He Es Hd|s e idx s' ci e' He Es Hd Hl IH]; intros Hc; inversion Hc as [es o H1 H2]; subst; simpl in *.
  - constructor; auto. rewrite map_map. apply Forall_forall. intros x Hx. apply in_map_iff in Hx as (z & <- & _). apply int_no_comma.
  - constructor; auto. rewrite map_app. apply Forall_app. split; [|eauto].
    rewrite map_map. apply Forall_forall. intros x Hx. apply in_map_iff in Hx as (z & <- & _). apply int_no_comma.
Qed.

Lemma app_len_inj {A} (a b c d : list A) : length a = length b -> a ++ c = b ++ d -> a = b /\ c = d.
Proof.
  revert b. induction a as [|x a IH]; intros [|y b] L E; simpl in *; try discriminate; auto.
  injection E as -> E. injection L as L. destruct (IH b L E) as [-> ->]. auto.
Qed.

Lemma Forall2_len {A B} (R : A -> B -> Prop) l m : Forall2 R l m -> length l = length m.
Proof. induction 1; simpl; congruence. Qed.

Lemma str_Leaf_inj s : Wf s -> forall ci e x ci' e' x', Leaf s ci e -> Leaf s ci' e' -> length x = length x' ->
  map str_ck (ci ++ map KI x) = map str_ck (ci' ++ map KI x') -> ci = ci' /\ x = x'.
Proof.
  induction 1 as [es order Hnd Hp Hsp Hsub IH]. intros ci e x ci' e' x' Hl Hl' L E.
  apply Leaf_inv in Hl as (e0 & idx & c & -> & He & Hd & Hc).
  apply Leaf_inv in Hl' as (e1 & idx' & c' & -> & He' & Hd' & Hc').
  simpl in E. injection E as En E. assert (e1 = e0) by (eapply name_inj; eauto). subst e1.
  rewrite <- !app_assoc in E. rewrite !(map_app str_ck (map KI _)) in E.
  apply app_len_inj in E as [E1 E2].
  2:{ rewrite !map_length. pose proof (Forall2_len _ _ _ Hd). pose proof (Forall2_len _ _ _ Hd'). congruence. }
  apply str_KI_inj in E1. subst idx'.
  destruct Hc as [(Es & -> & ->)|(s' & Es & Hl)], Hc' as [(Es' & -> & ->)|(s'' & Es' & Hl')]; try congruence.
  - apply str_KI_inj in E2. subst. auto.
  - assert (s'' = s') by congruence. subst s''.
    destruct (IH e0 s' He Es c e x c' e' x' Hl Hl' L E2) as [-> ->]. auto.
Qed.

Lemma getLabel_inj s c i j mode l : Wf s -> CommaFree s -> casadi_structure s = Ok c -> mode <> 0%Z ->
  getLabel c i mode = Ok l -> getLabel c j mode = Ok l -> i = j.
Proof.
  intros Hw Hf Hc Hm Hi Hj. unfold getLabel in *.
  destruct (getCanonicalIndex c i mode) as [t|] eqn:Ti; [|discriminate].
  destruct (getCanonicalIndex c j mode) as [t'|] eqn:Tj; [|discriminate]. cbn [rbind] in *.
  injection Hi as <-. injection Hj as Hj. symmetry in Hj. apply append_inj_r in Hj.
  apply (getCanonicalIndex_inj s c i j mode t Hw Hc Hm Ti). rewrite Tj. f_equal. symmetry.
  assert (R : forall k u, getCanonicalIndex c k mode = Ok u -> (0 <= k < Z.of_nat (cs_size c))%Z).
  { intros k u Hk. destruct (Z_le_dec 0 k); [destruct (Z_lt_dec k (Z.of_nat (cs_size c))); [lia|]|];
      rewrite getCanonicalIndex_err in Hk by lia; discriminate. }
  destruct (getCanonicalIndex_spec s c i mode Hw Hc (R _ _ Ti)) as (can & k & row & col & m & e & Hl & _ & _ & _ & _ & E).
  destruct (getCanonicalIndex_spec s c j mode Hw Hc (R _ _ Tj)) as (can' & k' & row' & col' & m' & e' & Hl' & _ & _ & _ & _ & E').
  rewrite Ti in E. rewrite Tj in E'. injection E as ->. injection E' as ->. apply Z.eqb_neq in Hm. rewrite Hm in *.
  pose proof (Leaf_comma s can e Hf Hl) as F. pose proof (Leaf_comma s can' e' Hf Hl') as F'.
  assert (X : forall z, Forall no_comma (map str_ck (map KI z))).
  { intros z. rewrite map_map. apply Forall_forall. intros q Hq. apply in_map_iff in Hq as (w & <- & _). apply int_no_comma. }
  assert (ZZ : forall (can : cidx) z, z <> [] -> map str_ck (can ++ map KI z) <> []).
  { intros cc z Hz Q. apply map_eq_nil, app_eq_nil in Q as [_ Q]. apply map_eq_nil in Q. contradiction. }
  assert (G : forall x x', x <> [] -> x' <> [] -> length x = length x' ->
     String.concat "," (map str_ck (can ++ map KI x)) = String.concat "," (map str_ck (can' ++ map KI x')) -> can = can' /\ x = x').
  { intros x x' Hx Hx' L EE. apply concat_inj in EE; auto; try (rewrite map_app; apply Forall_app; auto).
    eapply str_Leaf_inj; eauto. }
  destruct (mode =? 1)%Z.
  - destruct (G [Z.of_nat k] [Z.of_nat k']) as [-> [= ->]]; auto; discriminate.
  - destruct (G [Z.of_nat col; Z.of_nat row] [Z.of_nat col'; Z.of_nat row']) as [-> [= -> ->]]; auto; discriminate.
Qed.

Lemma rmapM_spec {A B} (f : A -> res B) l r : rmapM f l = Ok r -> Forall2 (fun a b => f a = Ok b) l r.
Proof.
  revert r. induction l as [|a l IH]; intros r H; simpl in H.
  - injection H as <-. constructor.
  - destruct (f a) as [b|] eqn:Ef; [|discriminate]. cbn [rbind] in H. destruct (rmapM f l) as [bs|] eqn:El; [|discriminate].
    injection H as <-. constructor; auto.
Qed.

Lemma labels_ok s c mode : Wf s -> casadi_structure s = Ok c ->
  exists l, labels c mode = Ok l /\ length l = cs_size c.
Proof.
  intros Hw Hc. unfold labels.
  assert (G : forall zs, (forall i, In i zs -> (0 <= i < Z.of_nat (cs_size c))%Z) ->
    exists l, rmapM (fun i => getLabel c i mode) zs = Ok l /\ length l = length zs).
  { induction zs as [|z zs IH]; intros H; simpl; [eauto|].
    destruct (getCanonicalIndex_spec s c z mode Hw Hc (H z (or_introl eq_refl))) as (can & k & row & col & m & e & _ & _ & _ & _ & _ & E).
    unfold getLabel at 1. rewrite E. cbn [rbind]. destruct IH as (l & -> & L); [intros; apply H; now right|]. simpl. eexists. split; [reflexivity|]. simpl. lia. }
  destruct (G (pyrange (Z.of_nat (cs_size c)))) as (l & E & L).
  - intros i Hi. unfold pyrange in Hi. apply in_map_iff in Hi as (k & <- & Hk). apply in_seq in Hk. lia.
  - exists l. split; [exact E|]. rewrite L. unfold pyrange. rewrite map_length, seq_length. lia.
Qed.

Theorem labels_distinct s c mode : Wf s -> CommaFree s -> casadi_structure s = Ok c -> mode <> 0%Z ->
  exists l, labels c mode = Ok l /\ length l = cs_size c /\ NoDup l /\
    forall k, k < cs_size c -> exists x, nth_error l k = Some x /\ getLabel c (Z.of_nat k) mode = Ok x.
Proof.
  intros Hw Hf Hc Hm. destruct (labels_ok s c mode Hw Hc) as (l & E & L). exists l. split; [exact E|]. split; [exact L|].
  unfold labels in E. apply rmapM_spec in E.
  assert (N : forall k, k < cs_size c -> exists x, nth_error l k = Some x /\ getLabel c (Z.of_nat k) mode = Ok x).
  { intros k Hk. destruct (nth_error l k) as [x|] eqn:Ex; [|apply nth_error_None in Ex; lia]. exists x. split; [reflexivity|].
    assert (K : forall zs (ys : list string), Forall2 (fun a b => getLabel c a mode = Ok b) zs ys -> forall k z y, nth_error zs k = Some z -> nth_error ys k = Some y -> getLabel c z mode = Ok y).
    { induction 1 as [|z y zs ys H _ IH]; intros [|n] z' y'; simpl; try discriminate; [now intros [= <-] [= <-]|apply IH]. }
    eapply K; [exact E| |exact Ex]. unfold pyrange. rewrite nth_error_map.
    rewrite (nth_error_nth' _ 0) by (rewrite seq_length; lia). rewrite seq_nth by lia. reflexivity. }
  split; [|exact N]. apply NoDup_nth_error. intros a b Ha Eab. rewrite L in Ha.
  destruct (N a Ha) as (x & Hx & Gx). rewrite Hx in Eab. symmetry in Eab.
  assert (Hb : b < cs_size c) by (rewrite <- L; apply nth_error_Some; congruence).
  destruct (N b Hb) as (y & Hy & Gy). assert (y = x) by congruence. subst.
  apply Nat2Z.inj. eapply getLabel_inj; eauto.
Qed.

Theorem labels_size s c mode : Wf s -> casadi_structure s = Ok c ->
  exists l, labels c mode = Ok l /\ length l = cs_size c.
Proof. apply labels_ok. Qed.

(** ** Canonical indices as power indices *)
Section P.
Context {T : Type} (zero : T).
Notation pstate := (pstate T).

Lemma scalar_read s c (st : pstate) ci e m ex k x :
  Obj s c st -> At s ci e -> e_struct e = None -> cmap_get ci (cs_map c) = Some m -> ex <> [] ->
  performExtraIndex (Some (info zero e)) false (RIdx m) ex = Ok (RIdx (dm_scalar k)) ->
  nth_error (ps_master st) k = Some x ->
  getitem zero s (num_env c) (pidx ci ++ ex) st = Ok (RMat (dm_scalar x)).
Proof.
  intros Ho Ha He Hm Hne E Hx. pose proof (ob_wf _ _ _ Ho) as Hw.
  unfold getitem. rewrite (travS_at zero s ci e Ha Hw). unfold endD, subT. rewrite He.
  destruct ex as [|y ex]; [contradiction|]. rewrite mwrap_snd. cbn [dispatch]. unfold getter. simpl ([] ++ ci).
  cbn [num_env en_map en_pmap extra]. rewrite Hm. unfold mbind, mlift. rewrite E. unfold get_master.
  assert (V : vec_get (ps_master st) (dm_scalar k) = Ok (dm_scalar x)).
  { unfold vec_get. simpl. rewrite Hx. reflexivity. }
  destruct (is_symm _).
  - rewrite V. reflexivity.
  - unfold correct_vector_indexing. rewrite V. reflexivity.
Qed.

Lemma all_pos_nth r c k : k < r * c -> nth_error (all_pos r c) k = Some (k mod r, k / r).
Proof.
  intros H. assert (Hr : r <> 0) by (intros ->; lia).
  assert (G : forall n j0 k, k < r * n -> nth_error (flat_map (fun j => map (fun i => (i, j)) (seq 0 r)) (seq j0 n)) k = Some (k mod r, j0 + k / r)).
  { induction n as [|n IH]; intros j0 q Hq; [lia|]. simpl.
    destruct (Nat.lt_ge_cases q r) as [L|L].
    - rewrite nth_error_app1 by (rewrite map_length, seq_length; lia). rewrite nth_error_map, (nth_error_nth' _ 0) by (rewrite seq_length; lia).
      rewrite seq_nth by lia. simpl. rewrite Nat.mod_small, Nat.div_small by lia. now rewrite Nat.add_0_r.
    - rewrite nth_error_app2 by (rewrite map_length, seq_length; lia). rewrite map_length, seq_length, IH by lia.
      assert (Q : q = (q - r) + 1 * r) by lia. rewrite Q at 3 4. rewrite Nat.mod_add, Nat.div_add by lia. do 2 f_equal. lia. }
  unfold all_pos. rewrite (G c 0 k H). reflexivity.
Qed.

Lemma norm_index_nat n q : q < n -> norm_index n (Z.of_nat q) = Ok q.
Proof.
  intros Hq. unfold norm_index. assert (E : ((- Z.of_nat n <=? Z.of_nat q) && (Z.of_nat q <? Z.of_nat n))%Z = true).
  { apply andb_true_iff. split; [apply Z.leb_le|apply Z.ltb_lt]; lia. }
  rewrite E. destruct (Z.of_nat q <? 0)%Z eqn:Q; [apply Z.ltb_lt in Q; lia|]. f_equal. lia.
Qed.

(** The leaf, the position in its pattern and the value behind component [i]. *)
Lemma component s c (st : pstate) i : Obj s c st -> (0 <= i < Z.of_nat (cs_size c))%Z ->
  exists x, nth_error (ps_master st) (Z.to_nat i) = Some x.
Proof.
  intros Ho Hi. destruct (nth_error (ps_master st) (Z.to_nat i)) eqn:E; [eauto|]. apply nth_error_None in E.
  rewrite (ob_len _ _ _ Ho) in E. lia.
Qed.

Lemma leaf_map_ok s c ci m : Wf s -> casadi_structure s = Ok c -> cmap_get ci (cs_map c) = Some m -> DmOk m.
Proof. intros Hw Hc Hm. now destruct (map_ok s c ci m Hw Hc Hm) as (_ & H & _). Qed.

Lemma dm_at_inv (m : dm nat) p v : DmOk m -> dm_at m p = Some v -> exists k, nth_error (sp_pat (dm_sp m)) k = Some p /\ nth_error (dm_nz m) k = Some v.
Proof.
  intros _. unfold dm_at. generalize (dm_nz m). induction (sp_pat (dm_sp m)) as [|q ps IH]; intros [|w vs] H; simpl in H; try discriminate.
  destruct (pos_eqb p q) eqn:E.
  - apply pos_eqb_eq in E. subst. injection H as ->. exists 0. auto.
  - destruct (IH vs H) as (k & H1 & H2). exists (S k). auto.
Qed.

(** The index of mode 1, for dense leaves. *)
Theorem index1_reads s c (st : pstate) i ci e t :
  Obj s c st -> getCanonicalIndex c i 0 = Ok ci -> Leaf s ci e ->
  sp_pat (e_sp e) = all_pos (sp_nr (e_sp e)) (sp_nc (e_sp e)) ->
  getCanonicalIndex c i 1 = Ok t ->
  exists x, nth_error (ps_master st) (Z.to_nat i) = Some x /\
    getitem zero s (num_env c) (pidx t) st = Ok (RMat (dm_scalar x)).
Proof.
  intros Ho H0 Hl Hd H1. pose proof (ob_wf _ _ _ Ho) as Hw. pose proof (ob_built _ _ _ Ho) as Hc.
  assert (Hi : (0 <= i < Z.of_nat (cs_size c))%Z).
  { destruct (Z_le_dec 0 i); [destruct (Z_lt_dec i (Z.of_nat (cs_size c))); [lia|]|]; rewrite getCanonicalIndex_err in H0 by lia; discriminate. }
  destruct (component s c st i Ho Hi) as (x & Hx). exists x. split; [exact Hx|].
  destruct (getCanonicalIndex_spec s c i 0 Hw Hc Hi) as (can & k & row & col & m & e1 & Hl1 & Hm & Hsp & Hk & Hp & E).
  rewrite H0 in E. simpl in E. injection E as ->. assert (e1 = e) by (eapply Leaf_fun; eauto). subst e1.
  destruct (getCanonicalIndex_spec s c i 1 Hw Hc Hi) as (can' & k' & row' & col' & m' & e1 & Hl1' & Hm' & Hsp' & Hk' & Hp' & E').
  rewrite H1 in E'. simpl in E'. injection E' as ->.
  assert (S : can' = can /\ k' = k).
  { pose proof H0 as Q. unfold getCanonicalIndex in Q, H1. destruct (_ || _)%Z; [discriminate|].
    destruct (nth_error (cs_lut c) (Z.to_nat i)) as [[[cc kk] pp]|] eqn:En; [|discriminate]. simpl in Q, H1. injection Q as ->. injection H1 as H1.
    apply app_inj_tail in H1 as [<- H1]. split; [reflexivity|]. rewrite Hm in Hm'. injection Hm' as <-.
    destruct (map_ok s c can m Hw Hc Hm) as (_ & _ & Hnd & _). eapply NoDup_nth_error; [exact Hnd|apply nth_error_Some; congruence|congruence]. }
  destruct S as [-> ->]. rewrite Hm in Hm'. injection Hm' as <-. clear Hk' Hp' Hsp'.
  pose proof (leaf_map_ok s c can m Hw Hc Hm) as Hok.
  assert (B : k < dm_nr m * dm_nc m).
  { unfold dm_nr, dm_nc. rewrite Hsp. rewrite <- all_pos_length, <- Hd, <- Hsp. apply nth_error_Some. congruence. }
  unfold pidx. rewrite map_app. destruct (Leaf_At s can e Hl) as [Ha He].
  apply (scalar_read s c st can e m [PInt (Z.of_nat k)] (Z.to_nat i) x); auto; [discriminate|].
  rewrite (pei1 _ m (PInt (Z.of_nat k)) (SelInt (Z.of_nat k)) eq_refl). unfold dm_get1. simpl sel_resolve.
  pose proof (norm_index_nat (dm_numel m) k B) as N.
  rewrite N. cbn [rmap rbind]. f_equal. f_equal. unfold dm_lin. simpl length. rewrite andb_false_r.
  unfold dm_build. simpl. rewrite (dm_at_nth m k _ Hok).
  - rewrite Hk. reflexivity.
  - rewrite Hsp, Hd. replace (dm_nr m) with (sp_nr (e_sp e)) in * by (unfold dm_nr; congruence). apply all_pos_nth.
    unfold dm_nr, dm_nc in B. rewrite Hsp in B. exact B.
Qed.

(** The index of mode 2 with its last two components exchanged, for every leaf. *)
Theorem index2_swapped_reads s c (st : pstate) i can a b :
  Obj s c st -> getCanonicalIndex c i 2 = Ok (can ++ [a; b]) ->
  exists x, nth_error (ps_master st) (Z.to_nat i) = Some x /\
    getitem zero s (num_env c) (pidx (can ++ [b; a])) st = Ok (RMat (dm_scalar x)).
Proof.
  intros Ho H2. pose proof (ob_wf _ _ _ Ho) as Hw. pose proof (ob_built _ _ _ Ho) as Hc.
  assert (Hi : (0 <= i < Z.of_nat (cs_size c))%Z).
  { destruct (Z_le_dec 0 i); [destruct (Z_lt_dec i (Z.of_nat (cs_size c))); [lia|]|]; rewrite getCanonicalIndex_err in H2 by lia; discriminate. }
  destruct (component s c st i Ho Hi) as (x & Hx). exists x. split; [exact Hx|].
  destruct (getCanonicalIndex_spec s c i 2 Hw Hc Hi) as (can' & k & row & col & m & e & Hl & Hm & Hsp & Hk & Hp & E).
  rewrite H2 in E. simpl in E. injection E as E.
  change [a; b] with ([a] ++ [b]) in E. change [KI (Z.of_nat col); KI (Z.of_nat row)] with ([KI (Z.of_nat col)] ++ [KI (Z.of_nat row)]) in E.
  rewrite !app_assoc in E. apply app_inj_tail in E as [E ->]. apply app_inj_tail in E as [<- ->].
  pose proof (leaf_map_ok s c can m Hw Hc Hm) as Hok.
  assert (At0 : dm_at m (row, col) = Some (Z.to_nat i)) by (rewrite (dm_at_nth m k _ Hok Hp); exact Hk).
  destruct (dm_at_bounds m _ _ Hok At0) as [B1 B2]. simpl in B1, B2.
  unfold pidx. rewrite map_app. destruct (Leaf_At s can e Hl) as [Ha He].
  apply (scalar_read s c st can e m [PInt (Z.of_nat row); PInt (Z.of_nat col)] (Z.to_nat i) x); auto; [discriminate|].
  rewrite (pei2 _ m (PInt (Z.of_nat row)) (PInt (Z.of_nat col)) (SelInt (Z.of_nat row)) (SelInt (Z.of_nat col)) eq_refl eq_refl).
  unfold dm_get2. simpl sel_resolve. rewrite (norm_index_nat _ row B1), (norm_index_nat _ col B2). cbn [rmap rbind]. f_equal. f_equal.
  unfold dm_sub, dm_build. simpl. rewrite At0. reflexivity.
Qed.

(** The index of mode 2 as it is returned: right for diagonal elements ... *)
Theorem index2_diagonal_reads s c (st : pstate) i can a :
  Obj s c st -> getCanonicalIndex c i 2 = Ok (can ++ [a; a]) ->
  exists x, nth_error (ps_master st) (Z.to_nat i) = Some x /\
    getitem zero s (num_env c) (pidx (can ++ [a; a])) st = Ok (RMat (dm_scalar x)).
Proof. apply index2_swapped_reads. Qed.

(** ... and never for the others. *)
Theorem index2_off_diagonal s c i can a b r :
  Wf s -> casadi_structure s = Ok c -> getCanonicalIndex c i 2 = Ok (can ++ [a; b]) -> a <> b ->
  i_get zero s (pidx (can ++ [a; b])) = Ok r -> ~ In (Z.to_nat i) (positions r).
Proof.
  intros Hw Hc H2 Hab Hr.
  assert (Hi : (0 <= i < Z.of_nat (cs_size c))%Z).
  { destruct (Z_le_dec 0 i); [destruct (Z_lt_dec i (Z.of_nat (cs_size c))); [lia|]|]; rewrite getCanonicalIndex_err in H2 by lia; discriminate. }
  destruct (getCanonicalIndex_spec s c i 2 Hw Hc Hi) as (can' & k & row & col & m & e & Hl & Hm & Hsp & Hk & Hp & E).
  rewrite H2 in E. simpl in E. injection E as E.
  change [a; b] with ([a] ++ [b]) in E. change [KI (Z.of_nat col); KI (Z.of_nat row)] with ([KI (Z.of_nat col)] ++ [KI (Z.of_nat row)]) in E.
  rewrite !app_assoc in E. apply app_inj_tail in E as [E ->]. apply app_inj_tail in E as [<- ->].
  destruct (map_ok s c can m Hw Hc Hm) as (_ & Hok & Hnd & _). destruct (Leaf_At s can e Hl) as [Ha He].
  assert (At0 : dm_at m (row, col) = Some (Z.to_nat i)) by (rewrite (dm_at_nth m k _ Hok Hp); exact Hk).
  unfold pidx in Hr. rewrite map_app in Hr. fold (@pidx T can) in Hr. simpl (map pck [_; _]) in Hr.
  unfold i_get, index_getter in Hr. rewrite Hc in Hr. cbn [rbind] in Hr.
  rewrite (travS_at zero s can e Ha Hw) in Hr. unfold endD, subT in Hr. rewrite He in Hr.
  rewrite mwrap_snd in Hr. cbn [dispatch] in Hr. unfold mlift, imget in Hr. simpl ([] ++ can) in Hr. cbn [en_map extra snd] in Hr. rewrite Hm in Hr.
  rewrite (pei2 _ m (PInt (Z.of_nat col)) (PInt (Z.of_nat row)) (SelInt (Z.of_nat col)) (SelInt (Z.of_nat row)) eq_refl eq_refl) in Hr.
  unfold dm_get2 in Hr. cbn [sel_resolve] in Hr.
  destruct (norm_index (dm_nr m) (Z.of_nat col)) as [i1|] eqn:N1; [|discriminate].
  destruct (norm_index (dm_nc m) (Z.of_nat row)) as [i2|] eqn:N2; [|discriminate].
  cbn [rmap rbind wrapE] in Hr. injection Hr as <-. cbn [positions]. unfold dm_sub, dm_build. simpl.
  assert (NN : forall n q q', norm_index n (Z.of_nat q) = Ok q' -> q' = q).
  { intros n q q'. unfold norm_index. destruct (_ && _); [|discriminate]. destruct (Z.of_nat q <? 0)%Z eqn:Q; [apply Z.ltb_lt in Q; lia|]. intros [= <-]. lia. }
  apply NN in N1, N2. subst i1 i2. destruct (dm_at m (col, row)) as [j|] eqn:Ej; simpl; [|tauto]. intros [->|[]].
  destruct (dm_at_inv m _ _ Hok Ej) as (k' & Hp' & Hk').
  assert (k' = k) by (eapply NoDup_nth_error; [exact Hnd|apply nth_error_Some; congruence|congruence]). subst k'.
  rewrite Hp in Hp'. injection Hp' as -> _. now apply Hab.
Qed.

(** The index of mode 0 reads the whole leaf that contains the component. *)
Theorem index0_reads s c (st : pstate) i ci e :
  Obj s c st -> getCanonicalIndex c i 0 = Ok ci -> Leaf s ci e -> e_symm e = false ->
  exists x R, nth_error (ps_master st) (Z.to_nat i) = Some x /\
    getitem zero s (num_env c) (pidx ci) st = Ok (RMat R) /\ dm_sp R = e_sp e /\ In x (dm_nz R).
Proof.
  intros Ho H0 Hl Hs. pose proof (ob_wf _ _ _ Ho) as Hw. pose proof (ob_built _ _ _ Ho) as Hc.
  assert (Hi : (0 <= i < Z.of_nat (cs_size c))%Z).
  { destruct (Z_le_dec 0 i); [destruct (Z_lt_dec i (Z.of_nat (cs_size c))); [lia|]|]; rewrite getCanonicalIndex_err in H0 by lia; discriminate. }
  destruct (component s c st i Ho Hi) as (x & Hx).
  destruct (getCanonicalIndex_spec s c i 0 Hw Hc Hi) as (can & k & row & col & m & e1 & Hl1 & Hm & Hsp & Hk & Hp & E).
  rewrite H0 in E. simpl in E. injection E as ->. assert (e1 = e) by (eapply Leaf_fun; eauto). subst e1.
  destruct (Leaf_At s can e Hl) as [Ha He].
  exists x, (vals zero (ps_master st) m). split; [exact Hx|]. split; [exact (getitem_at zero s c st can e m Ho Ha Hs Hm)|].
  split; [exact Hsp|]. unfold vals, dm_map. simpl. apply nth_error_In in Hk. apply in_map_iff. exists (Z.to_nat i). split; [|exact Hk].
  now apply nth_error_nth.
Qed.
End P.
