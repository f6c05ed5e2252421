(** C89: lists of numbers and lists of rows on the right-hand side of an assignment to one element. *)
From Coq Require Import ZArith.
From Verif Require Import PyBase IndexModel DMModel StructModel StructSpec PowerModel PowerSpec
  LayoutProofs LayoutThms DMProofs PowerProofs PowerThms.
Open Scope list_scope.
Open Scope nat_scope.

Section ListRhs.
Context {T : Type} (zero : T).
Notation rval := (rval T).
Notation pay := (pay T).
Notation env := (env T).
Notation pstate := (pstate T).

(** [[x1, x2, ...]] and [[[x11, x12, ...], [x21, ...], ...]] *)
Definition nums (xs : list T) : pay := PayList (map PayNum xs).
Definition rows_of (rows : list (list T)) : pay := PayList (map nums rows).

Lemma pay_nums_map xs : pay_nums (map (@PayNum T) xs) = Some xs.
Proof. induction xs; simpl; [reflexivity|]. now rewrite IHxs. Qed.
Lemma pay_rows_map rows : pay_rows (map nums rows) = Some rows.
Proof. induction rows; simpl; [reflexivity|]. now rewrite pay_nums_map, IHrows. Qed.
Lemma mtype_nums xs : to_mtype (nums xs) = Ok (dm_col xs).
Proof. cbn [to_mtype nums]. now rewrite pay_nums_map. Qed.
Lemma mtype_rows rows : rows <> [] -> to_mtype (rows_of rows) = dm_of_rows rows.
Proof. intros H. cbn [to_mtype rows_of]. rewrite pay_rows_map. destruct rows; [contradiction|reflexivity]. Qed.
Lemma ok_nums xs : pay_ok (nums xs).
Proof. exact I. Qed.
Lemma ok_rows rows : pay_ok (rows_of rows).
Proof. exact I. Qed.

(** What an accepted assignment to the element at [ci] leaves behind. *)
Definition ElemIs s c (st : pstate) ci (m : dm nat) (f : nat -> nat -> option T) (st' : pstate) : Prop :=
  exists R, getitem zero s (num_env c) (pidx ci) st' = Ok (RMat R) /\ dm_sp R = dm_sp m /\
    (forall i j, In (i, j) (sp_pat (dm_sp m)) -> dm_at R (i, j) = f i j) /\ unchanged (dm_nz m) st st'.

Lemma set_cases s c st ci e m v M : Obj s c st -> At s ci e -> e_symm e = false -> i_get zero s (pidx ci) = Ok (RIdx m) ->
  pay_ok v -> to_mtype v = Ok M ->
  (fits M (dm_sp m) -> exists st' r, setitem zero s (num_env c) (pidx ci) v st = (st', Ok r) /\ ElemIs s c st ci m (fun i j => Some (fit zero M (dm_sp m) (i, j))) st') /\
  (~ fits M (dm_sp m) -> setitem zero s (num_env c) (pidx ci) v st = (st, Err EException)).
Proof.
  intros Ho Ha Hs Hi Hv HM. pose proof (i_get_inv zero s c ci e m (ob_wf _ _ _ Ho) (ob_built _ _ _ Ho) Ha Hi) as Hm.
  destruct (setitem_at zero s c st ci e m v M Ho Ha Hs Hm Hv HM) as [[Hf E]|[Hf E]]; (split; intros Hf'; [|try contradiction; auto]); try contradiction.
  eexists; eexists. split; [exact E|]. destruct (read_after_write zero s c st ci e m v M _ _ Ho Ha Hs Hi Hv HM E) as (_ & R & HR & Hsp & Hel & _).
  exists R. split; [exact HR|]. split; [exact Hsp|]. split; [intros; now apply Hel|].
  split; [apply vec_set_list_length|]. intros k Hk. apply vec_set_list_other. exact Hk.
Qed.

Lemma col_val (xs : list T) i : dm_val zero (dm_col xs) (i, 0) = nth i xs zero.
Proof.
  unfold dm_val. destruct (Nat.lt_ge_cases i (length xs)) as [H|H].
  - assert (Hp : nth_error (sp_pat (dm_sp (dm_col xs))) i = Some (i, 0)).
    { cbn [dm_col dm_sp sp_dense sp_pat]. unfold all_pos. cbn [seq flat_map]. rewrite app_nil_r. rewrite nth_error_map. rewrite (nth_error_nth' (seq 0 (length xs)) 0) by (now rewrite seq_length). rewrite seq_nth by exact H. reflexivity. }
    rewrite (dm_at_nth (dm_col xs) i (i, 0) (dm_col_ok xs) Hp). cbn [dm_nz dm_col]. rewrite (nth_error_nth' xs zero H). reflexivity.
  - rewrite nth_overflow by exact H. unfold dm_at. rewrite pos_assoc_None; [reflexivity|]. intros Hin. destruct (dm_col_ok xs) as [[_ Hb] _]. rewrite Forall_forall in Hb. specialize (Hb _ Hin). cbn in Hb. lia.
Qed.

(** A list of [n] rows of [k] numbers sets an n x k element row by row. *)
Theorem rows_write s c st ci e m rows :
  Obj s c st -> At s ci e -> e_symm e = false -> i_get zero s (pidx ci) = Ok (RIdx m) ->
  rows <> [] -> (forall r, In r rows -> length r = dm_nc m) -> length rows = dm_nr m ->
  exists st' r, setitem zero s (num_env c) (pidx ci) (rows_of rows) st = (st', Ok r) /\
    ElemIs s c st ci m (fun i j => nth_error (nth i rows []) j) st'.
Proof.
  intros Ho Ha Hs Hi Hne Hr Hl. pose proof (i_get_inv zero s c ci e m (ob_wf _ _ _ Ho) (ob_built _ _ _ Ho) Ha Hi) as Hm.
  destruct (map_ok s c ci m (ob_wf _ _ _ Ho) (ob_built _ _ _ Ho) Hm) as (_ & Hok & _).
  assert (HM : to_mtype (rows_of rows) = Ok (dm_build (length rows) (dm_nc m) (fun p => nth_error (nth (fst p) rows []) (snd p)))).
  { rewrite (mtype_rows rows Hne). unfold dm_of_rows. destruct rows as [|r0 rows]; [contradiction|]. rewrite (Hr r0 (or_introl eq_refl)).
    replace (forallb _ (r0 :: rows)) with true; [reflexivity|]. symmetry. apply forallb_forall. intros r Hin. apply Nat.eqb_eq. now apply Hr. }
  destruct (set_cases s c st ci e m _ _ Ho Ha Hs Hi (ok_rows rows) HM) as [G _].
  destruct G as (st' & r & E & R & HR & Hsp & Hel & Hun); [right; left; unfold dm_shape; cbn; now rewrite Hl|].
  exists st', r. split; [exact E|]. exists R. split; [exact HR|]. split; [exact Hsp|]. split; [|exact Hun].
  intros i j Hin. rewrite (Hel i j Hin). destruct Hok as [[_ Hb] _]. rewrite Forall_forall in Hb. pose proof (Hb _ Hin) as [Hbi Hbj]. cbn [fst snd] in *.
  fold (dm_nr m) in Hbi. fold (dm_nc m) in Hbj.
  assert (Hn : j < length (nth i rows [])) by (rewrite (Hr (nth i rows [])); [exact Hbj|apply nth_In; lia]).
  assert (Hv : forall i' j', i' = i -> j' = j -> Some (dm_val zero (dm_build (length rows) (dm_nc m) (fun p => nth_error (nth (fst p) rows []) (snd p))) (i', j')) = nth_error (nth i rows []) j).
  { intros i' j' -> ->. unfold dm_val. rewrite dm_build_at. cbn [fst snd]. rewrite (proj2 (Nat.ltb_lt i (length rows))) by lia. rewrite (proj2 (Nat.ltb_lt _ _) Hbj). cbn [andb].
    destruct (nth_error (nth i rows []) j) eqn:En; [reflexivity|]. apply nth_error_None in En. lia. }
  unfold fit. destruct (dm_is_scalar _) eqn:Es.
  - unfold dm_is_scalar in Es. apply andb_true_iff in Es as [E1 E2]. apply Nat.eqb_eq in E1, E2. cbn in E1, E2. apply Hv; lia.
  - cbn [dm_build dm_nr dm_nc dm_sp sp_nr sp_nc]. fold (dm_nr m). fold (dm_nc m). rewrite <- Hl, !Nat.eqb_refl. cbn [andb]. apply Hv; reflexivity.
Qed.

(** Rows of different lengths are refused, and so are rows that form a matrix of a different shape. *)
Theorem rows_refused s c st ci e m rows :
  Obj s c st -> At s ci e -> e_symm e = false -> i_get zero s (pidx ci) = Ok (RIdx m) -> rows <> [] ->
  (exists r r', In r rows /\ In r' rows /\ length r <> length r') \/
  (exists k, (forall r, In r rows -> length r = k) /\ ~ (length rows = 1 /\ k = 1) /\ ~ (length rows = dm_nr m /\ k = dm_nc m) /\
     ~ (length rows = dm_nc m /\ k = dm_nr m /\ Nat.min (dm_nr m) (dm_nc m) = 1)) ->
  setitem zero s (num_env c) (pidx ci) (rows_of rows) st = (st, Err EException).
Proof.
  intros Ho Ha Hs Hi Hne H. pose proof (i_get_inv zero s c ci e m (ob_wf _ _ _ Ho) (ob_built _ _ _ Ho) Ha Hi) as Hm.
  destruct H as [(r & r' & H1 & H2 & H3)|(k & Hk & N1 & N2 & N3)].
  - apply (setitem_at_err zero s c st ci e m _ EException Ho Ha Hm). rewrite (mtype_rows rows Hne). unfold dm_of_rows.
    destruct (forallb _ rows) eqn:Ef; [|reflexivity]. rewrite forallb_forall in Ef. pose proof (Ef r H1) as E1. pose proof (Ef r' H2) as E2. apply Nat.eqb_eq in E1, E2. congruence.
  - assert (HM : to_mtype (rows_of rows) = Ok (dm_build (length rows) k (fun p => nth_error (nth (fst p) rows []) (snd p)))).
    { rewrite (mtype_rows rows Hne). unfold dm_of_rows. destruct rows as [|r0 rows]; [contradiction|]. rewrite (Hk r0 (or_introl eq_refl)).
      replace (forallb _ (r0 :: rows)) with true; [reflexivity|]. symmetry. apply forallb_forall. intros r Hin. apply Nat.eqb_eq. now apply Hk. }
    destruct (set_cases s c st ci e m _ _ Ho Ha Hs Hi (ok_rows rows) HM) as [_ G]. apply G.
    unfold fits, dm_shape. cbn [dm_build dm_nr dm_nc dm_sp sp_nr sp_nc]. fold (dm_nr m). fold (dm_nc m).
    intros [[= F1 F2]|[[= F1 F2]|[[= F1 F2] F3]]]; tauto.
Qed.

(** A list of numbers sets a column or a row; a single number in a list fills the element. *)
Theorem nums_write s c st ci e m xs :
  Obj s c st -> At s ci e -> e_symm e = false -> i_get zero s (pidx ci) = Ok (RIdx m) ->
  (dm_nc m = 1 /\ length xs = dm_nr m) \/ (dm_nr m = 1 /\ length xs = dm_nc m /\ xs <> []) ->
  exists st' r, setitem zero s (num_env c) (pidx ci) (nums xs) st = (st', Ok r) /\ ElemIs s c st ci m (fun i j => nth_error xs (i + j)) st'.
Proof.
  intros Ho Ha Hs Hi H. pose proof (i_get_inv zero s c ci e m (ob_wf _ _ _ Ho) (ob_built _ _ _ Ho) Ha Hi) as Hm.
  destruct (map_ok s c ci m (ob_wf _ _ _ Ho) (ob_built _ _ _ Ho) Hm) as (_ & Hok & _).
  destruct (set_cases s c st ci e m _ _ Ho Ha Hs Hi (ok_nums xs) (mtype_nums xs)) as [G _].
  destruct G as (st' & r & E & R & HR & Hsp & Hel & Hun).
  { unfold fits, dm_shape. cbn [dm_col dm_nr dm_nc dm_sp sp_dense sp_nr sp_nc]. fold (dm_nr m). fold (dm_nc m).
    destruct (Nat.eq_dec (length xs) 1) as [->|Hn1]; [now left|]. right. destruct H as [[-> ->]|(-> & <- & Hx)]; [now left|]. right. split; [reflexivity|]. destruct xs; [contradiction|]. cbn [length]. lia. }
  exists st', r. split; [exact E|]. exists R. split; [exact HR|]. split; [exact Hsp|]. split; [|exact Hun].
  intros i j Hin. rewrite (Hel i j Hin). destruct Hok as [[_ Hb] _]. rewrite Forall_forall in Hb. pose proof (Hb _ Hin) as [Hbi Hbj]. cbn [fst snd] in *.
  fold (dm_nr m) in Hbi. fold (dm_nc m) in Hbj.
  assert (Hx : i + j < length xs) by (destruct H as [[]|(? & ? & ?)]; lia). rewrite (nth_error_nth' xs zero Hx). f_equal.
  unfold fit. destruct (dm_is_scalar _) eqn:Es.
  - unfold dm_is_scalar in Es. apply andb_true_iff in Es as [E1 _]. apply Nat.eqb_eq in E1. cbn in E1. rewrite col_val. f_equal. lia.
  - cbn [dm_col dm_nr dm_nc dm_sp sp_dense sp_nr sp_nc]. fold (dm_nr m). fold (dm_nc m). cbn [fst snd].
    destruct ((dm_nr m =? length xs) && (dm_nc m =? 1)) eqn:Eb.
    + apply andb_true_iff in Eb as [_ E2]. apply Nat.eqb_eq in E2. assert (j = 0) as -> by lia. rewrite col_val. f_equal. lia.
    + destruct H as [[H1 H2]|(H1 & H2 & _)]; [rewrite H1, H2, !Nat.eqb_refl in Eb; discriminate|]. assert (i = 0) as -> by lia. rewrite col_val. reflexivity.
Qed.
Theorem nums_fill s c st ci e m x :
  Obj s c st -> At s ci e -> e_symm e = false -> i_get zero s (pidx ci) = Ok (RIdx m) ->
  exists st' r, setitem zero s (num_env c) (pidx ci) (nums [x]) st = (st', Ok r) /\ ElemIs s c st ci m (fun _ _ => Some x) st'.
Proof.
  intros Ho Ha Hs Hi. destruct (set_cases s c st ci e m _ _ Ho Ha Hs Hi (ok_nums [x]) (mtype_nums [x])) as [G _]. exact (G (or_introl eq_refl)).
Qed.
Theorem nums_refused s c st ci e m xs :
  Obj s c st -> At s ci e -> e_symm e = false -> i_get zero s (pidx ci) = Ok (RIdx m) -> length xs <> 1 ->
  ~ (dm_nc m = 1 /\ length xs = dm_nr m) -> ~ (dm_nr m = 1 /\ length xs = dm_nc m /\ xs <> []) ->
  setitem zero s (num_env c) (pidx ci) (nums xs) st = (st, Err EException).
Proof.
  intros Ho Ha Hs Hi N1 N2 N3. destruct (set_cases s c st ci e m _ _ Ho Ha Hs Hi (ok_nums xs) (mtype_nums xs)) as [_ G]. apply G.
  unfold fits, dm_shape. cbn [dm_col dm_nr dm_nc dm_sp sp_dense sp_nr sp_nc]. fold (dm_nr m). fold (dm_nc m).
  intros [[= F1]|[[= F1 F2]|[[= F1 F2] F3]]]; [lia| |]; [apply N2; split; lia|apply N3; split; [lia|]; split; [lia|]; intros ->; cbn in *; lia].
Qed.
End ListRhs.
