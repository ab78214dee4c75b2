(** The loading of imports ends; the folders at the start; success if everything is there. *)
From Verif Require Import Base Base_Proofs Text_Model Text_Proofs Tok_Model Tok_Proofs3 Conf_Model Conf_Proofs Decl_Model Decl_Proofs6 Decl_Props
  Import_Model Import_Spec Import_Paths Import_Proofs Import_Proofs2.
From Coq Require Import Sorting.Sorted.

Lemma tokenize_ends text : tokenize text <> Fuel.
Proof.
  unfold tokenize, raw_tokens. apply rb_no; [|intros l _; unfold passes; apply rb_no; [apply const_pass_fuel; reflexivity|done]].
  apply rb_no; [|done]. generalize t_init. generalize (text ++ [chr 0]). intros s. induction s as [|c s IH]; intros t; [done|]. cbn [t_run].
  apply rb_no; [|intros; apply IH]. unfold t_step. apply rb_no.
  - unfold open_comment, pop_back. repeat case_match; done.
  - intros [[slc mlc] toks] _. repeat case_match; done.
Qed.
Lemma analyse_text_ends text : analyse_text text <> Fuel.
Proof. unfold analyse_text. apply rb_no; [apply tokenize_ends|intros; apply C65_ends]. Qed.

Section Load.
Context (fs : fsys) (cwd : list str) (Cwd : Forall good_name cwd) (T : tree_ok fs).
Context (meaning : list str -> str -> res unit) (loads : str -> bool).
Notation inv := (inv fs cwd).
Notation ext := (ext fs cwd).
Notation ld := (load fs cwd meaning loads).

Lemma full_ends s : full_name fs cwd s <> Fuel.
Proof. unfold full_name. repeat case_match; done. Qed.
Lemma full_no_throw s e : full_name fs cwd s <> Throw e.
Proof. unfold full_name. repeat case_match; done. Qed.
Lemma build_ends o i : build_filename fs cwd o i <> Fuel.
Proof.
  unfold build_filename, real_path. apply rb_no; [apply full_ends|]. intros p _. do 2 (case_match; [done|]). apply rb_no; [apply full_ends|].
  intros a _. case_match; done.
Qed.
Lemma add_ends o v : add_folder fs cwd o v <> Fuel.
Proof. unfold add_folder. destruct o; [done|]. apply rb_no; [apply full_ends|done]. Qed.

(** ** It ends *)
Section Ends.
Context (lib : list str) (MF : forall b f, meaning b f <> Fuel).
Lemma read_ends b f c : read_file meaning b f c <> Fuel.
Proof. unfold read_file. apply rb_no; [apply analyse_text_ends|]. intros ds _. apply rb_no; [apply MF|done]. Qed.
Lemma ext_ends o l : load_extensions loads o l <> Fuel.
Proof. unfold load_extensions. case_match; done. Qed.
Section Loops.
Context (n m : nat).
Hypothesis LE : forall g v, canon g -> inv lib v -> (m <= length (v_imported v))%nat -> ld n g v <> Fuel.
Lemma relative_ends folder files : forall v, inv lib v -> (m <= length (v_imported v))%nat -> relative fs cwd (ld n) folder files v <> Fuel.
Proof.
  induction files as [|i files IH]; intros v I L; cbn [relative]; [done|]. apply rb_no; [apply build_ends|]. intros g B.
  assert (Cg := build_canon fs cwd Cwd _ _ _ B). apply rb_no; [apply LE; assumption|]. intros [b v1] Hl.
  destruct (load_spec fs cwd Cwd meaning loads lib n _ _ _ _ Cg I Hl) as (I1 & E1 & _).
  apply rb_no; [|done]. apply IH; [exact I1|]. pose proof (ext_length fs cwd lib v v1 I E1). cbn [snd]. lia.
Qed.
Lemma try_ends i folders : forall v, inv lib v -> (m <= length (v_imported v))%nat -> try_folders fs cwd (ld n) i folders v <> Fuel.
Proof.
  induction folders as [|o folders IH]; intros v I L; cbn [try_folders]; [done|]. apply rb_no; [apply build_ends|]. intros g B.
  assert (Cg := build_canon fs cwd Cwd _ _ _ B). apply rb_no; [apply LE; assumption|]. intros [b v1] Hl.
  destruct (load_spec fs cwd Cwd meaning loads lib n _ _ _ _ Cg I Hl) as (I1 & E1 & _). cbn [fst snd]. destruct b; [done|].
  apply IH; [exact I1|]. pose proof (ext_length fs cwd lib v v1 I E1). lia.
Qed.
Lemma from_ends folders files : forall v, inv lib v -> (m <= length (v_imported v))%nat -> from_folders fs cwd (ld n) folders files v <> Fuel.
Proof.
  induction files as [|i files IH]; intros v I L; cbn [from_folders]; [done|]. apply rb_no; [apply try_ends; assumption|]. intros v1 H.
  destruct (try_spec fs cwd Cwd lib (ld n) (load_spec fs cwd Cwd meaning loads lib n) _ _ _ _ I H) as (I1 & E1 & _).
  apply IH; [exact I1|]. pose proof (ext_length fs cwd lib v v1 I E1). lia.
Qed.
End Loops.
Lemma inv_step g v v1 : canon g -> inv lib v -> file_exists fs cwd g = true -> g ∉ v_imported v -> add_folder fs cwd (extract_pathname g) v = Ok v1 ->
  inv lib (VM (v_folders v1) (g :: v_imported v1)).
Proof.
  intros Cg I X Hin A. apply add_folder_spec in A as (A1 & A2 & A3 & A4).
  destruct I as (L & S & ND & Fa & Kn). split; [intros o Ho; apply A2, L, Ho|]. cbn [v_folders v_imported]. rewrite A1.
  split; [apply A3; exact S|]. split; [constructor; assumption|]. split; [constructor; [split; assumption|exact Fa]|].
  intros o Ho. apply A4 in Ho as [Ho|Ho]; [|right; exists g; split; [left|exact Ho]].
  destruct (Kn o Ho) as [?|(f & Hf & Hp)]; [left; assumption|right; exists f; split; [right; exact Hf|exact Hp]].
Qed.
Lemma load_ends n : forall g v, canon g -> inv lib v -> (length fs + 1 - n <= length (v_imported v))%nat -> ld n g v <> Fuel.
Proof.
  induction n as [|n IH]; intros g v Cg I L.
  - pose proof (inv_bound fs cwd T lib v I). lia.
  - cbn [load]. destruct (file_exists fs cwd g) eqn:X; cbn [negb]; [|done]. case_bool_decide as Hin; [done|].
    apply rb_no; [apply add_ends|]. intros v1 A. assert (I2 := inv_step g v v1 Cg I X Hin A).
    apply rb_no; [apply read_ends|]. intros ds _. apply rb_no; [apply ext_ends|]. intros _ _.
    set (v2 := VM (v_folders v1) (g :: v_imported v1)) in *.
    assert (L2 : (length fs + 1 - n <= length (v_imported v2))%nat).
    { unfold v2. cbn [v_imported length]. apply add_folder_spec in A as (A1 & _). rewrite A1. lia. }
    apply rb_no; [apply (relative_ends n (length fs + 1 - n)); assumption|]. intros [rest v3] R.
    destruct (relative_spec fs cwd Cwd lib _ (load_spec fs cwd Cwd meaning loads lib n) _ _ _ _ _ I2 R) as (I3 & E3 & _).
    apply rb_no; [|done]. cbn [fst snd]. apply (from_ends n (length fs + 1 - n)); [assumption..|].
    pose proof (ext_length fs cwd lib v2 v3 I2 E3). lia.
Qed.
End Ends.

(** ** The folders at the start *)
Definition add_all (parts : list str) (v : vm) : res vm := fold_left (fun r p => let! v := r in add_folder fs cwd p v) parts (Ok v).
Lemma add_all_bad parts (r : res vm) : (forall v, r <> Ok v) -> fold_left (fun r p => let! v := r in add_folder fs cwd p v) parts r = r.
Proof. revert r. induction parts as [|p parts IH]; intros r H; [reflexivity|]. cbn [fold_left]. destruct r as [v| | |]; [exfalso; eapply H; reflexivity|..]; cbn [rbind]; apply IH; done. Qed.
Lemma add_all_cons p parts v : add_all (p :: parts) v = let! v1 := add_folder fs cwd p v in add_all parts v1.
Proof.
  unfold add_all. cbn [fold_left rbind]. destruct (add_folder fs cwd p v) as [v1| | |]; cbn [rbind]; [reflexivity|..]; apply add_all_bad; done.
Qed.
Lemma env_loop_parts parts : Forall (fun p => chr 58 ∉ p) parts -> forall n v, (length (colons parts) <= n)%nat ->
  env_loop fs cwd n (colons parts) v = add_all parts v.
Proof.
  induction parts as [|p parts IH]; intros Hp n v L; [destruct n; reflexivity|]. inversion_clear Hp as [|? ? Hp1 Hp2]. rewrite add_all_cons.
  destruct parts as [|q parts].
  - cbn [colons] in *. destruct p as [|c p]; [destruct n; reflexivity|]. destruct n as [|n]; [cbn in L; lia|]. cbn [env_loop].
    rewrite (split_by_none (chr 58) (c :: p)) by exact Hp1. destruct (add_folder fs cwd (c :: p) v) as [v1| | |]; cbn [rbind]; try reflexivity. destruct n; reflexivity.
  - change (colons (p :: q :: parts)) with (p ++ chr 58 :: colons (q :: parts)) in *. rewrite app_length in L. cbn [length] in L.
    destruct n as [|n]; [lia|]. destruct (p ++ chr 58 :: colons (q :: parts)) as [|x y] eqn:E1; [destruct p; discriminate|]. cbn [env_loop]. rewrite <- E1.
    rewrite split_by_app by exact Hp1. destruct (add_folder fs cwd p v) as [v1| | |]; cbn [rbind]; try reflexivity. apply IH; [exact Hp2|lia].
Qed.
Lemma init_parts parts v : Forall (fun p => chr 58 ∉ p) parts -> init_folders fs cwd (colons parts) v = add_all parts v.
Proof. intros H. apply env_loop_parts; [exact H|reflexivity]. Qed.
Lemma add_all_spec parts : forall v v', add_all parts v = Ok v' -> sorted_folders (v_folders v) ->
  v_imported v' = v_imported v /\ sorted_folders (v_folders v') /\
  forall o, o ∈ v_folders v' <-> o ∈ v_folders v \/ exists part p, part ∈ parts /\ part <> [] /\ full_name fs cwd part = Ok p /\ o = p ++ $"/".
Proof.
  induction parts as [|p parts IH]; intros v v' H S.
  - injection H as <-. split; [reflexivity|]. split; [exact S|]. intros o. split; [auto|]. intros [?|(part & q & Hp & _)]; [assumption|inversion Hp].
  - rewrite add_all_cons in H. destruct (add_folder fs cwd p v) as [v1| | |] eqn:A; try discriminate. cbn [rbind] in H.
    assert (A' := A). apply add_folder_spec in A' as (A1 & A2 & A3 & A4). destruct (IH _ _ H (A3 S)) as (B1 & B2 & B3).
    split; [congruence|]. split; [exact B2|]. intros o. rewrite B3. split.
    + intros [Ho|(part & q & Hp & R)]; [|right; exists part, q; split; [right; exact Hp|exact R]].
      destruct p as [|c p]; [cbn in A; injection A as <-; left; exact Ho|].
      destruct (A4 o Ho) as [Hv|(q & Hq & ->)]; [left; exact Hv|right]. exists (c :: p), q. split; [left|]. split; [discriminate|]. split; [exact Hq|reflexivity].
    + intros [Ho|(part & q & Hp & Np & Hq & ->)]; [left; apply A2; exact Ho|]. apply elem_of_cons in Hp as [->|Hp]; [|right; exists part, q; auto].
      left. unfold add_folder in A. destruct p as [|c p]; [done|]. rewrite Hq in A. cbn [rbind] in A. injection A as <-. cbn [v_folders]. apply insert_in. left. reflexivity.
Qed.
Lemma add_all_ok parts : forall v, (exists v', add_all parts v = Ok v') <-> Forall (fun p => p = [] \/ exists q, full_name fs cwd p = Ok q) parts.
Proof.
  induction parts as [|p parts IH]; intros v; [split; [constructor|eexists; reflexivity]|]. rewrite add_all_cons, Forall_cons.
  unfold add_folder at 1. destruct p as [|c p].
  - cbn [rbind]. rewrite IH. split; [intros H; split; [left; reflexivity|exact H]|intros [_ H]; exact H].
  - destruct (full_name fs cwd (c :: p)) as [q| | |]; cbn [rbind].
    + rewrite IH. split; [intros H; split; [right; exists q; reflexivity|exact H]|intros [_ H]; exact H].
    + split; [intros (? & ?); discriminate|intros [[?|(? & ?)] _]; discriminate].
    + split; [intros (? & ?); discriminate|intros [[?|(? & ?)] _]; discriminate].
    + split; [intros (? & ?); discriminate|intros [[?|(? & ?)] _]; discriminate].
Qed.
Lemma add_all_only parts : forall v, (exists v', add_all parts v = Ok v') \/ add_all parts v = UB.
Proof.
  induction parts as [|p parts IH]; intros v; [left; eexists; reflexivity|]. rewrite add_all_cons. unfold add_folder. destruct p as [|c p]; [cbn [rbind]; apply IH|].
  destruct (full_name fs cwd (c :: p)) as [q|e| |] eqn:F; cbn [rbind]; [apply IH|exfalso; eapply full_no_throw; exact F|right; reflexivity|exfalso; eapply full_ends; exact F].
Qed.
Lemma sorted_same l1 : forall l2, sorted_folders l1 -> sorted_folders l2 -> (forall o, o ∈ l1 <-> o ∈ l2) -> l1 = l2.
Proof.
  induction l1 as [|a l1 IH]; intros l2 S1 S2 H.
  - destruct l2 as [|b l2]; [reflexivity|]. exfalso. assert (X : b ∈ []) by (apply H; left). inversion X.
  - destruct l2 as [|b l2]; [exfalso; assert (X : a ∈ []) by (apply H; left); inversion X|].
    inversion S1 as [|? ? S1' F1]; subst. inversion S2 as [|? ? S2' F2]; subst. rewrite Forall_forall in F1, F2.
    assert (a = b) as ->.
    { apply str_ltb_total.
      - destruct (str_ltb a b) eqn:L; [exfalso|reflexivity]. assert (X : a ∈ b :: l2) by (apply H; left). apply elem_of_cons in X as [->|X]; [rewrite str_ltb_irrefl in L; discriminate|].
        apply F2 in X. rewrite (str_ltb_asym _ _ L) in X. discriminate.
      - destruct (str_ltb b a) eqn:L; [exfalso|reflexivity]. assert (X : b ∈ a :: l1) by (apply H; left). apply elem_of_cons in X as [->|X]; [rewrite str_ltb_irrefl in L; discriminate|].
        apply F1 in X. rewrite (str_ltb_asym _ _ L) in X. discriminate. }
    f_equal. apply IH; [assumption..|]. intros o. specialize (H o). rewrite !elem_of_cons in H.
    assert (N1 : b ∉ l1) by (intros X; apply F1 in X; rewrite str_ltb_irrefl in X; discriminate).
    assert (N2 : b ∉ l2) by (intros X; apply F2 in X; rewrite str_ltb_irrefl in X; discriminate).
    split; intros X.
    + destruct H as [H _]. destruct (H (or_intror X)) as [->|?]; [contradiction|assumption].
    + destruct H as [_ H]. destruct (H (or_intror X)) as [->|?]; [contradiction|assumption].
Qed.
Theorem env_order p1 p2 v : sorted_folders (v_folders v) -> Forall (fun p => chr 58 ∉ p) p1 -> (forall x, x <> [] -> x ∈ p1 <-> x ∈ p2) -> Forall (fun p => chr 58 ∉ p) p2 ->
  init_folders fs cwd (colons p1) v = init_folders fs cwd (colons p2) v.
Proof.
  intros S H1 P H2. rewrite !init_parts by assumption.
  assert (Q : Forall (fun p => p = [] \/ exists q, full_name fs cwd p = Ok q) p1 <-> Forall (fun p => p = [] \/ exists q, full_name fs cwd p = Ok q) p2).
  { rewrite !Forall_forall. split; intros H x Hx; (destruct x as [|c x]; [left; reflexivity|]); apply H; apply P; try discriminate; exact Hx. }
  destruct (add_all_only p1 v) as [(v1 & E1)|E1].
  - assert (X : exists v2, add_all p2 v = Ok v2) by (apply add_all_ok, Q, (add_all_ok p1 v); exists v1; exact E1). destruct X as (v2 & E2).
    rewrite E1, E2. f_equal. apply add_all_spec in E1 as (A1 & A2 & A3); [|exact S]. apply add_all_spec in E2 as (B1 & B2 & B3); [|exact S].
    destruct v1 as [f1 i1], v2 as [f2 i2]. cbn [v_imported v_folders] in *. f_equal; [|congruence]. apply sorted_same; [assumption..|]. intros o. rewrite A3, B3.
    split; (intros [?|(part & q & Hp & Np & R)]; [left; assumption|right; exists part, q; split; [apply P; assumption|split; assumption]]).
  - destruct (add_all_only p2 v) as [(v2 & E2)|E2]; [|congruence].
    assert (X : exists v1, add_all p1 v = Ok v1) by (apply add_all_ok, Q, (add_all_ok p2 v); exists v2; exact E2). destruct X as (v1 & X). congruence.
Qed.
End Load.
