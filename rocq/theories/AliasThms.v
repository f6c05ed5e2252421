(** C91: structures made from numeric data: which ones keep their own copy. *)
From Verif Require Import PyBase IndexModel DMModel StructModel StructSpec PowerModel PowerSpec StructsModel AliasModel
  IndexProofs LayoutProofs LayoutThms LayoutExamples DMProofs PowerProofs PowerExamples StructsThms2 ListRhsThms.
Open Scope list_scope.
Open Scope nat_scope.

Section Alias.
Context {T : Type} (zero nan : T).
Notation pel := (pel T).
Notation pay := (pay T).
Notation heap := (heap T).
Notation darg := (darg T).

(** The vector after the assignments [l], one after the other, of a structure that keeps it to itself. *)
Fixpoint written (c : cstruct) (v : list T) (l : list (list pel * pay)) : list T :=
  match l with
  | [] => v
  | (pi, p) :: l' => written c (ps_master (fst (setitem zero (cs_struct c) (num_env c) pi p (PState v [] [])))) l'
  end.
(** A column of the right length that is not the scalar used to fill a longer vector. *)
Definition used_as_is (c : cstruct) (d : dm T) : Prop := dm_shape d <> (1, 1) \/ cs_size c = 1.

Lemma set_nth_same {A} r (x : A) l : r < length l -> nth_error (set_nth r x l) r = Some x.
Proof. revert r. induction l as [|a l IH]; intros [|r] H; cbn in *; try lia; [reflexivity|]. apply IH. lia. Qed.
Lemma set_nth_other {A} r r' (x : A) l : r <> r' -> nth_error (set_nth r x l) r' = nth_error l r'.
Proof. revert r r'. induction l as [|a l IH]; intros [|r] [|r'] H; cbn; try reflexivity; [lia|]. apply IH. lia. Qed.

Lemma column_col (v : list T) : column zero (dm_col v) = v.
Proof.
  apply nth_error_ext. intros i. destruct (Nat.lt_ge_cases i (length v)) as [H|H].
  - rewrite column_nth by exact H. rewrite col_val. symmetry. now apply nth_error_nth'.
  - rewrite !(proj2 (nth_error_None _ _)); [reflexivity|exact H|rewrite column_length; exact H].
Qed.
Lemma a_sets_other h (o : aobj) l r : r <> ao_ref o -> nth_error (a_sets zero h o l) r = nth_error h r.
Proof.
  revert h. induction l as [|[pi v] l IH]; intros h H; [reflexivity|]. cbn [a_sets]. rewrite IH by exact H. unfold a_set.
  destruct (setitem _ _ _ _ _ _) as [st rr]. cbn [fst]. apply set_nth_other. congruence.
Qed.
Lemma a_sets_same h (o : aobj) l d : nth_error h (ao_ref o) = Some d ->
  exists d', nth_error (a_sets zero h o l) (ao_ref o) = Some d' /\ column zero d' = written (ao_c o) (column zero d) l.
Proof.
  revert h d. induction l as [|[pi v] l IH]; intros h d H; [exists d; auto|]. cbn [a_sets written]. unfold a_set, a_cat. rewrite H.
  change (Env (cs_map (ao_c o)) [] KPlain []) with (@num_env T (ao_c o)). destruct (setitem _ _ _ _ _ _) as [st rr]. cbn [fst].
  destruct (IH (set_nth (ao_ref o) (dm_col (ps_master st)) h) (dm_col (ps_master st))) as (d' & H1 & H2).
  - apply set_nth_same. apply nth_error_Some. congruence.
  - exists d'. split; [exact H1|]. rewrite H2, column_col. reflexivity.
Qed.

Lemma struct_ok h c r h' o : dm_struct nan h c (ARef r) = Ok (h', o) -> h' = h /\ o = AObj c r.
Proof.
  unfold dm_struct. cbn [master_of]. destruct (nth_error h r) as [d|]; [|discriminate]. destruct (negb (dm_nr d =? cs_size c)); [discriminate|].
  destruct (negb (dm_nc d =? 1) && (0 <? dm_nr d)); [discriminate|]. now intros [= <- <-].
Qed.

(** Numbers, lists, arrays and scalar matrices are copied: no earlier object changes. *)
Theorem own_copy h c (a : darg) h' o l :
  call_dm zero nan h c a = Ok (h', o) -> (forall r d, a = ARef r -> nth_error h r = Some d -> ~ used_as_is c d) ->
  forall r, r < length h -> nth_error (a_sets zero h' o l) r = nth_error h r.
Proof.
  intros E Hn r Hr.
  assert (G : forall h0 k d, nth_error h0 k = Some d -> (exists t, h0 = h ++ t) -> (length h <= k \/ ~ used_as_is c d) ->
    (if (dm_nr d =? 1) && (dm_nc d =? 1) && negb (cs_size c =? 1) then dm_struct nan (h0 ++ [fill_scalar (cs_size c) 1 d]) c (ARef (length h0)) else dm_struct nan h0 c (ARef k)) = Ok (h', o) ->
    length h <= ao_ref o /\ exists t, h' = h ++ t).
  { intros h0 k d Hk (t & ->) Hc. destruct ((dm_nr d =? 1) && (dm_nc d =? 1) && negb (cs_size c =? 1)) eqn:Eb.
    - intros E0. apply struct_ok in E0. destruct E0 as [-> ->]. cbn [ao_ref]. split; [rewrite app_length; lia|]. exists (t ++ [fill_scalar (cs_size c) 1 d]). now rewrite app_assoc.
    - assert (Hl : length h <= k).
      { destruct Hc as [Hc|Hc]; [exact Hc|]. exfalso. apply Hc. unfold used_as_is, dm_shape. destruct (Nat.eqb_spec (cs_size c) 1); [now right|]. left. intros [= H1 H2]. rewrite H1, H2 in Eb. cbn in Eb. discriminate. }
      intros E0. apply struct_ok in E0. destruct E0 as [-> ->]. cbn [ao_ref]. split; [exact Hl|]. now exists t. }
  assert (Hf : length h <= ao_ref o /\ exists t, h' = h ++ t).
  { destruct a as [k|d|]; cbn [call_dm] in E.
    - destruct (nth_error h k) as [d|] eqn:Ek; [|discriminate]. apply (G h k d Ek); [exists []; now rewrite app_nil_r|right; now apply (Hn k)|exact E].
    - assert (Ek : nth_error (h ++ [d]) (length h) = Some d) by (rewrite nth_error_app2, Nat.sub_diag by lia; reflexivity). rewrite Ek in E.
      apply (G (h ++ [d]) (length h) d Ek); [now exists [d]|left; lia|exact E].
    - assert (Ek : nth_error (h ++ [dm_scalar zero]) (length h) = Some (dm_scalar zero)) by (rewrite nth_error_app2, Nat.sub_diag by lia; reflexivity). rewrite Ek in E.
      apply (G (h ++ [dm_scalar zero]) (length h) _ Ek); [now exists [dm_scalar zero]|left; lia|exact E]. }
  destruct Hf as [Hf (t & ->)]. rewrite a_sets_other by lia. now apply nth_error_app1.
Qed.

(** A DM of the structure's size becomes the data of the structure: assignments to the structure change it, and every structure
    made from it, and nothing else. *)
Theorem shared h c r d h' o l :
  nth_error h r = Some d -> used_as_is c d -> call_dm zero nan h c (ARef r) = Ok (h', o) ->
  h' = h /\ (exists d', nth_error (a_sets zero h' o l) r = Some d' /\ column zero d' = written c (column zero d) l) /\
  (forall r', r' <> r -> nth_error (a_sets zero h' o l) r' = nth_error h r') /\
  (forall c2 h2 o2, used_as_is c2 d -> call_dm zero nan h' c2 (ARef r) = Ok (h2, o2) -> a_cat zero (a_sets zero h2 o l) o2 = written c (column zero d) l).
Proof.
  intros Hr Hu E.
  assert (G : forall c0 h0 o0, used_as_is c0 d -> call_dm zero nan h c0 (ARef r) = Ok (h0, o0) -> h0 = h /\ o0 = AObj c0 r).
  { intros c0 h0 o0 Hu0. unfold call_dm. rewrite Hr.
    assert (Eb : (dm_nr d =? 1) && (dm_nc d =? 1) && negb (cs_size c0 =? 1) = false).
    { destruct Hu0 as [H|H]; [|rewrite H, Nat.eqb_refl; now rewrite !andb_false_r]. destruct (Nat.eqb_spec (dm_nr d) 1) as [H1|]; [|reflexivity]. destruct (Nat.eqb_spec (dm_nc d) 1) as [H2|]; [|reflexivity].
      exfalso. apply H. unfold dm_shape. now rewrite H1, H2. }
    rewrite Eb. apply struct_ok. }
  destruct (G c h' o Hu E) as [-> ->]. split; [reflexivity|].
  destruct (a_sets_same h (AObj c r) l d Hr) as (d' & H1 & H2). cbn [ao_ref ao_c] in *. split; [exists d'; auto|]. split; [intros r' Hn; apply a_sets_other; exact Hn|].
  intros c2 h2 o2 Hu2 E2. destruct (G c2 h2 o2 Hu2 E2) as [-> ->]. unfold a_cat. cbn [ao_ref]. now rewrite H1.
Qed.
End Alias.

Theorem own_copy_refuted : exists (h : heap Z) c r d o pi v,
  nth_error h r = Some d /\ call_dm 0%Z (-1)%Z h c (ARef r) = Ok (h, o) /\ nth_error (fst (a_set 0%Z h o pi v)) r <> Some d.
Proof.
  exists [col [1; 2; 3; 4; 5; 6; 7]%Z], ex3_c, 0, (col [1; 2; 3; 4; 5; 6; 7]%Z), (AObj ex3_c 0), [PStr "x"; PInt 0], (PayNum 42%Z).
  split; [reflexivity|]. split; [vm_compute; reflexivity|]. vm_compute. discriminate.
Qed.
Example own_copy_example : exists h' o, call_dm 0%Z (-1)%Z [dm_scalar 5%Z] ex3_c (ARef 0) = Ok (h', o) /\ ~ used_as_is ex3_c (dm_scalar 5%Z) /\
  a_sets 0%Z h' o [([PStr "x"; PInt 0], PayNum 42%Z)] = [dm_scalar 5%Z; col [42; 5; 5; 5; 5; 5; 5]%Z].
Proof. eexists. eexists. split; [vm_compute; reflexivity|]. split; [intros [H|H]; [apply H; reflexivity|discriminate]|]. vm_compute. reflexivity. Qed.
