(** C67: imports are found where the language says, loaded once, completely, and nothing else is loaded. *)
From Verif Require Import Base Base_Proofs Text_Model Tok_Model Conf_Model Decl_Model
  Import_Model Import_Spec Import_Paths Import_Proofs Import_Proofs2 Import_Proofs3 Import_Proofs4.
From Coq Require Import Sorting.Sorted.

(** ** Which file an import names *)
Theorem C67_resolution fs cwd d t ns n : tree_ok fs -> folder_text d t -> Forall good_name d -> Forall plain (ns ++ [n]) ->
  entry_at fs (d ++ ns) = Some Dir -> (forall c, entry_at fs (d ++ ns ++ [n]) <> Some (File c)) ->
  match first_there fs (candidates d ns n) with
  | Some c => names_file fs cwd t (dots (ns ++ [n])) (spell c)
  | None => names_none fs cwd t (dots (ns ++ [n]))
  end.
Proof. intros T. apply resolution. exact T. Qed.
Print Assumptions C67_resolution.

Definition ex_fs : fsys :=
  [([$"lib"], Dir); ([$"lib"; $"System"], Dir); ([$"lib"; $"System"; $"IO.os"], File ($"import String; "));
   ([$"lib"; $"System"; $"String.slang"], File ($"import Text.Format; ")); ([$"lib"; $"Text"], Dir); ([$"lib"; $"Text"; $"Format"], Dir);
   ([$"lib"; $"Text"; $"Format"; $"All.os"], File ($"import System.IO; "));
   ([$"app"], Dir); ([$"app"; $"main.slang"], File ($"import System.IO; import helper; "));
   ([$"app"; $"helper.os"], File ($"import System.String; "))].
Lemma entries_tree fs : Forall (fun '(p, e) => p <> [] /\ Forall good_name p /\ entry_at fs (removelast p) = Some Dir) fs -> tree_ok fs.
Proof.
  intros H. assert (X : forall p e, p <> [] -> entry_at fs p = Some e -> Forall good_name p /\ entry_at fs (removelast p) = Some Dir).
  { intros p e Np He. destruct p as [|n p]; [done|]. cbn [entry_at] in He. rewrite Forall_forall in H.
    assert (Y : exists x, (n :: p, x) ∈ fs).
    { clear H Np. induction fs as [|[q x] r IH]; [discriminate|]. cbn [lookup_entry] in He. case_bool_decide as Hq; [exists x; subst; left|].
      destruct (IH He) as (y & Hy). exists y. right. exact Hy. }
    destruct Y as (x & Y). apply H in Y. tauto. }
  split.
  - intros p n e He. destruct (X (p ++ [n]) e) as [_ Y]; [destruct p; discriminate|exact He|]. rewrite removelast_last in Y. exact Y.
  - intros p e He. destruct p as [|n p]; [constructor|]. eapply X; [discriminate|exact He].
Qed.
Ltac names := repeat (constructor; [split; [discriminate|]; split; [|try split; try discriminate]; intros ?X; repeat (apply elem_of_cons in X as [X|X]; [discriminate X|]); inversion X|]); constructor.
Ltac tree := apply entries_tree; unfold ex_fs; repeat (constructor; [split; [discriminate|]; split; [names|reflexivity]|]); constructor.
Example ex_tree : tree_ok ex_fs. Proof. tree. Qed.
Example C67_resolution_ex : first_there ex_fs (candidates [$"lib"] [$"Text"] ($"Format")) = Some [$"lib"; $"Text"; $"Format"; $"All.os"] /\
  names_file ex_fs [] ($"/lib/") ($"Text.Format") ($"/lib/Text/Format/All.os") /\ names_none ex_fs [] ($"/app/") ($"Text.Format").
Proof. split; [reflexivity|]. split; [split; reflexivity|]. eexists. split; vm_compute; reflexivity. Qed.

(** If a folder on the way is missing, the rest of the import is not looked at: [import n.m] then means the file n. *)
Theorem C67_missing_folder fs cwd d t ns n m r : tree_ok fs -> folder_text d t -> Forall good_name d -> Forall plain (ns ++ n :: m :: r) ->
  entry_at fs (d ++ ns) = Some Dir -> entry_at fs (d ++ ns ++ [n]) = None ->
  build_filename fs cwd t (dots (ns ++ n :: m :: r)) = build_filename fs cwd t (dots (ns ++ [n])).
Proof. intros T. apply missing_folder. exact T. Qed.
Print Assumptions C67_missing_folder.
(** ... so that an import may load a file with another name. *)
Theorem C67_name_refuted : exists fs v, tree_ok fs /\
  script_from_file fs [] (fun _ _ => Ok tt) (fun _ => true) [] ($"/main.slang") = Ok v /\ content_of fs [] ($"/main.slang") = $"import Net.Http.Client; " /\
  v_imported v = [$"/Net.os"].
Proof.
  exists [([$"main.slang"], File ($"import Net.Http.Client; ")); ([$"Net.os"], File ($" "))]. eexists. split; [|split; [vm_compute; reflexivity|split; reflexivity]].
  apply entries_tree. repeat (constructor; [split; [discriminate|]; split; [names|reflexivity]|]); constructor.
Qed.
Print Assumptions C67_name_refuted.

Section Props.
Context (fs : fsys) (cwd : list str) (meaning : list str -> str -> res unit) (loads : str -> bool).
Hypothesis (Cwd : Forall good_name cwd) (T : tree_ok fs).
Context (parts : list str) (filename : str) (lib : list str).
Hypothesis (NoColon : Forall (fun p => chr 58 ∉ p) parts) (Start : start_folders fs cwd parts filename lib).
Notation run := (script_from_file fs cwd meaning loads (colons parts) filename).

Lemma begin_folders v0 v1 name : full_name fs cwd filename = Ok name ->
  add_folder fs cwd (extract_pathname name) (VM [] []) = Ok v0 -> init_folders fs cwd (colons parts) v0 = Ok v1 ->
  inv fs cwd lib v1 /\ v_imported v1 = [] /\ forall o, o ∈ v_folders v1 <-> o ∈ lib.
Proof.
  intros Fn A In. rewrite init_parts in In by exact NoColon.
  assert (A0 : add_all fs cwd [extract_pathname name] (VM [] []) = Ok v0) by (rewrite add_all_cons, A; reflexivity).
  apply add_all_spec in A0 as (A1 & A2 & A3); [|constructor]. apply add_all_spec in In as (B1 & B2 & B3); [|exact A2]. cbn [v_imported v_folders] in *.
  assert (Ne : extract_pathname name <> []).
  { apply (full_good fs cwd Cwd) in Fn as (p & _ & ->). unfold extract_pathname. destruct (Conf_Model.split_last is_separator (spell p)) as [[[a x] b]|] eqn:Sp; [destruct a; discriminate|].
    destruct p; discriminate. }
  assert (M : forall o, o ∈ v_folders v1 <-> o ∈ lib).
  { intros o. rewrite B3, A3, (Start o). split.
    - intros [[H|(part & p & Hp & _ & Hf & ->)]|H]; [inversion H| |right; exact H]. apply elem_of_list_singleton in Hp as ->. left. exists name. split; [exact Fn|]. exists p. split; [exact Hf|reflexivity].
    - intros [(s & Hs & p & Hp & ->)|H]; [|right; exact H]. rewrite Fn in Hs. injection Hs as <-. left. right. exists (extract_pathname name), p. split; [left|]. split; [exact Ne|]. split; [exact Hp|reflexivity]. }
  split; [|split; [congruence|exact M]]. split; [intros o Ho; apply M; exact Ho|]. split; [exact B2|]. rewrite B1, A1. split; [constructor|]. split; [constructor|].
  intros o Ho. left. apply M. exact Ho.
Qed.
Lemma begin v : run = Ok v -> exists name ds v1, inv fs cwd lib v1 /\ v_imported v1 = [] /\ (forall o, o ∈ v_folders v1 <-> o ∈ lib) /\
  analyse_text (content_of fs cwd filename) = Ok ds /\ create_script fs cwd meaning loads name (content_of fs cwd filename) v1 = Ok v /\
  from_folders fs cwd (load fs cwd meaning loads (S (S (length fs)))) v_folders (imports ds) v1 = Ok v.
Proof.
  unfold script_from_file. destruct (file_exists fs cwd filename); [|discriminate]. cbn [negb].
  destruct (full_name fs cwd filename) as [name| | |] eqn:Fn; try discriminate. cbn [rbind].
  destruct (add_folder fs cwd (extract_pathname name) (VM [] [])) as [v0| | |] eqn:A; try discriminate. cbn [rbind].
  destruct (init_folders fs cwd (colons parts) v0) as [v1| | |] eqn:In; try discriminate. cbn [rbind]. intros H.
  destruct (begin_folders v0 v1 name Fn A In) as (I & J & M). assert (H0 := H). unfold create_script, read_file in H.
  destruct (analyse_text (content_of fs cwd filename)) as [ds| | |]; try discriminate. cbn [rbind] in H.
  destruct (meaning (v_imported v1) name); try discriminate. cbn [rbind] in H.
  destruct (match extensions ds, v_folders v1 with [], _ => Ok tt | _ :: _, [] => UB | l, folder :: _ => load_extensions loads folder l end); try discriminate. cbn [rbind] in H.
  exists name, ds, v1. repeat (split; [assumption|]). split; [reflexivity|]. split; assumption.
Qed.
Lemma script_folders v1 u : inv fs cwd lib u -> ext fs cwd lib v1 u ->
  sorted_folders (v_folders u) /\ (forall o, o ∈ lib -> o ∈ v_folders u) /\ forall o, o ∈ v_folders u -> o ∈ [] ++ v_folders u.
Proof. intros I _. split; [apply I|]. split; [apply I|]. intros o Ho. exact Ho. Qed.
Lemma run_facts v : run = Ok v -> inv fs cwd lib v /\
  (forall i, text_imports (content_of fs cwd filename) i -> exists g, library_file fs cwd lib (v_folders v) i g /\ g ∈ v_imported v) /\
  (forall f, f ∈ v_imported v -> forall i, file_imports fs cwd f i -> exists g, g ∈ v_imported v /\ means fs cwd lib (v_folders v) f i g) /\
  (forall g, g ∈ v_imported v -> needed fs cwd lib (v_folders v) (content_of fs cwd filename) g).
Proof.
  intros H. destruct (begin v H) as (name & ds & v1 & I & J & M & Hd & _ & F).
  destruct (from_spec fs cwd Cwd lib _ (load_spec fs cwd Cwd meaning loads lib _) [] v_folders (imports ds) v1 v I (script_folders v1) F) as (I2 & E2 & R).
  split; [exact I2|]. split; [|split].
  - intros i Hi. apply text_imports_iff in Hi as (ds' & Hd' & Hi). rewrite Hd in Hd'. injection Hd' as <-. apply R. exact Hi.
  - intros f Hf i Hi. apply E2; [exact Hf| |exact Hi]. rewrite J. intros X. inversion X.
  - intros g Hg. assert (X : g ∈ v_imported v1 \/ needed fs cwd lib (v_folders v) (content_of fs cwd filename) g).
    { eapply (from_needed fs cwd Cwd meaning loads lib (v_folders v) _ _ (load_needed fs cwd Cwd meaning loads lib (v_folders v) _ _ _) [] v_folders (imports ds));
        [|exact I|exact (script_folders v1)|exact F|auto|exact Hg].
      intros i x Hi Lx. eapply needed_script; [apply text_imports_iff; exists ds; split; [exact Hd|exact Hi]|exact Lx]. }
    destruct X as [X|X]; [rewrite J in X; inversion X|exact X].
  Unshelve. intros f i x Nf Hi Mx. eapply needed_file; eauto.
Qed.
End Props.

(** ** Every file is loaded once *)
Theorem C67_once fs cwd meaning loads parts filename lib v : Forall good_name cwd -> tree_ok fs -> Forall (fun p => chr 58 ∉ p) parts ->
  start_folders fs cwd parts filename lib -> script_from_file fs cwd meaning loads (colons parts) filename = Ok v ->
  exists files, v_imported v = map spell files /\ NoDup files /\ Forall (there fs) files.
Proof.
  intros Cwd T NC St H. destruct (run_facts fs cwd meaning loads Cwd parts filename lib NC St v H) as ((_ & _ & ND & Fa & _) & _).
  exists (map (fun g => tl (names_of g)) (v_imported v)).
  assert (X : Forall (fun g => spell (tl (names_of g)) = g /\ there fs (tl (names_of g))) (v_imported v)).
  { eapply Forall_impl; [exact Fa|]. intros g [(q & Nq & Gq & ->) Ex]. rewrite spell_names by assumption. cbn [tl]. split; [reflexivity|].
    rewrite exists_spell in Ex by assumption. unfold there, is_there in *. destruct (entry_at fs q); [discriminate|discriminate Ex]. }
  clear Fa. rewrite Forall_forall in X. split; [|split].
  - rewrite map_map. rewrite <- (map_id (v_imported v)) at 1. apply map_ext_in. intros g Hg. symmetry. apply X. apply elem_of_list_In. exact Hg.
  - clear H. revert X. induction ND as [|g l Hg ND IH]; intros X; [constructor|]. cbn [map]. constructor; [|apply IH; intros; apply X; right; assumption].
    intros Y. apply elem_of_list_fmap in Y as (h & Hh & Hin). apply Hg. destruct (X g) as [X1 _]; [left|]. destruct (X h) as [X2 _]; [right; exact Hin|]. congruence.
  - apply Forall_forall. intros q Hq. apply elem_of_list_fmap in Hq as (g & -> & Hg). apply X. exact Hg.
Qed.
Print Assumptions C67_once.

(** ** Everything that is needed is loaded *)
Theorem C67_everything fs cwd meaning loads parts filename lib v : Forall good_name cwd -> tree_ok fs -> Forall (fun p => chr 58 ∉ p) parts ->
  start_folders fs cwd parts filename lib -> script_from_file fs cwd meaning loads (colons parts) filename = Ok v ->
  (forall i, text_imports (content_of fs cwd filename) i -> exists g, library_file fs cwd lib (v_folders v) i g /\ g ∈ v_imported v) /\
  (forall f i, f ∈ v_imported v -> file_imports fs cwd f i -> exists g, means fs cwd lib (v_folders v) f i g /\ g ∈ v_imported v).
Proof.
  intros Cwd T NC St H. destruct (run_facts fs cwd meaning loads Cwd parts filename lib NC St v H) as (_ & A & B & _). split; [exact A|].
  intros f i Hf Hi. destruct (B f Hf i Hi) as (g & Hg & M). exists g. split; assumption.
Qed.
Print Assumptions C67_everything.

(** ** Nothing else is loaded *)
Theorem C67_only_needed fs cwd meaning loads parts filename lib v : Forall good_name cwd -> tree_ok fs -> Forall (fun p => chr 58 ∉ p) parts ->
  start_folders fs cwd parts filename lib -> script_from_file fs cwd meaning loads (colons parts) filename = Ok v ->
  (forall g, g ∈ v_imported v -> needed fs cwd lib (v_folders v) (content_of fs cwd filename) g) /\
  (forall o, o ∈ v_folders v -> o ∈ lib \/ exists f, f ∈ v_imported v /\ folder_of_file fs cwd f o).
Proof.
  intros Cwd T NC St H. destruct (run_facts fs cwd meaning loads Cwd parts filename lib NC St v H) as (I & _ & _ & A). split; [exact A|]. apply I.
Qed.
Print Assumptions C67_only_needed.

Example C67_run_ex : exists v, script_from_file ex_fs [] (fun _ _ => Ok tt) (fun _ => true) ($"/lib:/usr") ($"/app/main.slang") = Ok v /\
  v_imported v = [$"/app/helper.os"; $"/lib/Text/Format/All.os"; $"/lib/System/String.slang"; $"/lib/System/IO.os"] /\
  start_folders ex_fs [] [$"/lib"; $"/usr"] ($"/app/main.slang") [$"/app/"; $"/lib/"; $"/usr/"].
Proof.
  eexists. split; [vm_compute; reflexivity|]. split; [reflexivity|]. intros o. rewrite !elem_of_cons. split.
  - intros [->|[->|[->|H]]]; [left; eexists; split; [vm_compute; reflexivity|]; eexists; split; vm_compute; reflexivity|right|right|inversion H].
    + exists ($"/lib"), ($"/lib"). split; [left|]. split; [discriminate|]. split; vm_compute; reflexivity.
    + exists ($"/usr"), ($"/usr"). split; [right; left|]. split; [discriminate|]. split; vm_compute; reflexivity.
  - intros [(s & Hs & p & Hp & ->)|(part & p & Hp & _ & Hf & ->)].
    + vm_compute in Hs. injection Hs as <-. vm_compute in Hp. injection Hp as <-. left. reflexivity.
    + apply elem_of_cons in Hp as [->|Hp]; [vm_compute in Hf; injection Hf as <-; right; left; reflexivity|].
      apply elem_of_list_singleton in Hp as ->. vm_compute in Hf. injection Hf as <-. right. right. left. reflexivity.
Qed.

(** ** It ends, also when files import each other *)
Theorem C67_terminates fs cwd meaning loads parts filename : Forall good_name cwd -> tree_ok fs -> Forall (fun p => chr 58 ∉ p) parts ->
  (forall b f, meaning b f <> Fuel) -> script_from_file fs cwd meaning loads (colons parts) filename <> Fuel.
Proof.
  intros Cwd T NC MF H. unfold script_from_file in H. destruct (file_exists fs cwd filename); [|discriminate]. cbn [negb] in H.
  destruct (full_name fs cwd filename) as [name| | |] eqn:Fn; try discriminate; [|exact (full_ends fs cwd filename Fn)]. cbn [rbind] in H.
  destruct (add_folder fs cwd (extract_pathname name) (VM [] [])) as [v0| | |] eqn:A; try discriminate; [|exact (add_ends fs cwd _ _ A)]. cbn [rbind] in H.
  destruct (init_folders fs cwd (colons parts) v0) as [v1| | |] eqn:In; try discriminate; cbn [rbind] in H.
  - assert (I1 : inv fs cwd (v_folders v1) v1).
    { assert (A0 : add_all fs cwd [extract_pathname name] (VM [] []) = Ok v0) by (rewrite add_all_cons, A; reflexivity).
      apply add_all_spec in A0 as (A1 & A2 & A3); [|constructor]. rewrite init_parts in In by exact NC. apply add_all_spec in In as (B1 & B2 & B3); [|exact A2].
      split; [auto|]. split; [exact B2|]. rewrite B1, A1. split; [constructor|]. split; [constructor|auto]. }
    unfold create_script, read_file in H. revert H. apply Decl_Proofs6.rb_no; [apply Decl_Proofs6.rb_no; [apply analyse_text_ends|]; intros ds _; apply Decl_Proofs6.rb_no; [apply MF|done]|].
    intros ds _. apply Decl_Proofs6.rb_no; [destruct (extensions ds); [done|]; destruct (v_folders v1); [done|apply ext_ends]|]. intros _ _.
    apply (from_ends fs cwd Cwd meaning loads (v_folders v1) (S (S (length fs))) 0); [|exact I1|lia]. intros g v Cg I _. apply (load_ends fs cwd Cwd T meaning loads (v_folders v1) MF); [exact Cg|exact I|lia].
  - rewrite init_parts in In by exact NC. destruct (add_all_only fs cwd parts v0) as [(? & X)|X]; congruence.
Qed.
Print Assumptions C67_terminates.

(** ** It succeeds if everything is there *)
Theorem C67_succeeds fs cwd meaning loads parts filename lib : Forall good_name cwd -> tree_ok fs -> tidy fs -> Forall (fun p => chr 58 ∉ p) parts ->
  start_folders fs cwd parts filename lib ->
  (forall b f, meaning b f = Ok tt) -> (forall x, loads x = true) ->
  (exists p, find_path fs cwd filename = At p /\ p <> []) -> filename <> [] -> Forall (fun part => part <> [] -> names_dir fs cwd part) parts ->
  let script := content_of fs cwd filename in
  let wanted := wanted fs cwd lib script in
  (exists ds, analyse_text script = Ok ds) -> (forall f, wanted f -> exists ds, analyse_text (content_of fs cwd f) = Ok ds) ->
  (forall i, text_imports script i -> dotted i /\ exists o g, o ∈ lib /\ names_file fs cwd o i g) ->
  (forall f i, wanted f -> file_imports fs cwd f i -> dotted i /\
     ((exists g, names_file fs cwd (extract_pathname f) i g) \/ exists o g, o ∈ lib /\ names_file fs cwd o i g)) ->
  exists v, script_from_file fs cwd meaning loads (colons parts) filename = Ok v.
Proof.
  intros Cwd T Td NC St MO LO (p & Fp & Np) Ne Dirs script wanted (ds & Hds) HR HS HF.
  assert (Gp : Forall good_name p) by (apply (find_good fs cwd Cwd filename); left; exact Fp).
  assert (Tp : entry_at fs p <> None).
  { unfold find_path in Fp. destruct filename as [|c s]; [done|]. destruct (bool_decide (c = chr 47)); [eapply (walk_at_there fs T); [|exact Fp]; discriminate|].
    destruct (entry_at fs cwd) as [e|] eqn:Ec; [eapply (walk_at_there fs T); [|exact Fp]; congruence|].
    assert (W := Fp). cbn [names_of] in W. destruct (bool_decide (c = chr 47)), (names_of s); cbn [walk] in W; rewrite Ec in W; discriminate. }
  assert (Fn : full_name fs cwd filename = Ok (spell p)) by (unfold full_name; destruct filename; [done|]; rewrite Fp; reflexivity).
  destruct (path_of_file fs cwd T Td p Np Gp Tp) as (d & Dd & Gd & Ft & Fu).
  unfold script_from_file. assert (file_exists fs cwd filename = true) as -> by (unfold file_exists; destruct filename; [done|]; rewrite Fp; reflexivity). cbn [negb]. rewrite Fn. cbn [rbind].
  destruct (add_folder fs cwd (extract_pathname (spell p)) (VM [] [])) as [v0| | |] eqn:A;
    [|exfalso; unfold add_folder in A; destruct (extract_pathname (spell p)) eqn:Ex; [discriminate A|]; rewrite Fu in A; discriminate A..].
  cbn [rbind]. rewrite init_parts by exact NC.
  assert (OkP : Forall (fun q => q = [] \/ exists x, full_name fs cwd q = Ok x) parts).
  { eapply Forall_impl; [exact Dirs|]. intros q Hq. destruct q as [|c q]; [left; reflexivity|right]. destruct Hq as (e & He & _); [discriminate|]. unfold full_name. rewrite He. eexists. reflexivity. }
  destruct (proj2 (add_all_ok fs cwd parts v0) OkP) as (v1 & In). rewrite In. cbn [rbind]. rewrite <- (init_parts fs cwd parts v0) in In by exact NC.
  destruct (begin_folders fs cwd Cwd parts filename lib NC St v0 v1 (spell p) Fn A In) as (I & J & M).
  assert (FO : Forall (folder_ok fs) (v_folders v1)).
  { apply Forall_forall. intros o Ho. apply M in Ho. apply St in Ho as [(s & Hs & q & Hq & ->)|(part & q & Hp & Npa & Hf & ->)].
    - rewrite Fn in Hs. injection Hs as <-. rewrite Fu in Hq. injection Hq as <-. exists d. split; [exact Gd|]. split; [left; reflexivity|]. apply (dir_no_file fs T). exact Dd.
    - rewrite Forall_forall in Dirs. destruct (Dirs part Hp Npa) as (e & He & De). unfold full_name in Hf. destruct part; [done|]. rewrite He in Hf. injection Hf as <-.
      exists e. split; [eapply (find_good fs cwd Cwd); left; exact He|]. split; [left; reflexivity|]. apply (dir_no_file fs T). exact De. }
  unfold create_script, read_file. change (content_of fs cwd filename) with script. rewrite Hds. cbn [rbind]. rewrite MO. cbn [rbind].
  assert (X : match extensions ds, v_folders v1 with [], _ => Ok tt | _ :: _, [] => UB | l, folder :: _ => load_extensions loads folder l end = Ok tt).
  { destruct (extensions ds) as [|e es]; [reflexivity|]. destruct (v_folders v1) as [|o os] eqn:Vf.
    - exfalso. assert (Z : spell d ++ $"/" ∈ lib) by (apply St; left; exists (spell p); split; [exact Fn|]; exists (spell d); split; [exact Fu|reflexivity]). apply M in Z. inversion Z.
    - unfold load_extensions. rewrite (proj2 (forallb_forall _ _)) by (intros; apply LO). reflexivity. }
  rewrite X. cbn [rbind].
  assert (Cl : forall k f i g, known_ok fs cwd lib wanted k -> wanted f -> file_imports fs cwd f i -> means fs cwd lib k f i g -> wanted g).
  { intros k f i g Hk Nf Hi Mg. eapply wanted_file; eauto. }
  assert (Ti : forall i, i ∈ imports ds -> text_imports script i) by (intros i Hi; apply text_imports_iff; exists ds; split; assumption).
  destruct (from_complete fs cwd Cwd meaning loads Td lib wanted (S (S (length fs))) 0) with (extra := @nil str) (folders := v_folders) (files := imports ds) (v := v1) as (v' & Hv & _).
  - intros g v Cg V _ Ng. eapply (load_complete fs cwd Cwd T meaning loads Td lib wanted MO LO Cl HR); [| |exact Cg|exact V|lia|exact Ng].
    + intros f i Wf Hi. destruct (HF f i Wf Hi) as [Dt _]. exact Dt.
    + intros f i Wf Hi. apply (HF f i Wf Hi).
  - intros i Hi. destruct (HS i (Ti i Hi)) as [Dt _]. exact Dt.
  - intros i k g Hk Hi Lg. eapply wanted_script; [exact Hk|apply Ti; exact Hi|exact Lg].
  - intros i Hi. destruct (HS i (Ti i Hi)) as [_ (o & g & Ho & Hg)]. exists o, g. split; [right; exact Ho|exact Hg].
  - split; [exact I|]. split; [exact FO|]. rewrite J. constructor.
  - lia.
  - intros u (Iu & Fu' & _) _. split; [apply Iu|]. split; [apply Iu|]. split; [intros o Ho; inversion Ho|]. split; [exact Fu'|]. intros o Ho. exact Ho.
  - exists v'. exact Hv.
Qed.
Print Assumptions C67_succeeds.
Definition ex_two : fsys := [([$"main.slang"], File ($"import a; ")); ([$"a.os"], File ($"import main; "))].
Example C67_succeeds_ex : exists v, script_from_file ex_two [] (fun _ _ => Ok tt) (fun _ => true) (colons []) ($"/main.slang") = Ok v.
Proof.
  assert (T : tree_ok ex_two) by (apply entries_tree; repeat (constructor; [split; [discriminate|]; split; [names|reflexivity]|]); constructor).
  assert (En : forall p e, entry_at ex_two p = Some e -> p = [] \/ p = [$"main.slang"] \/ p = [$"a.os"]).
  { intros p e H. destruct p as [|n p]; [left; reflexivity|]. cbn [entry_at lookup_entry ex_two] in H. right. case_bool_decide as H1; [left; exact H1|]. case_bool_decide as H2; [right; exact H2|discriminate]. }
  assert (Nf : forall o i g, names_file ex_two [] o i g -> g = $"/main.slang" \/ g = $"/a.os").
  { intros o i g [B X]. destruct (build_canon ex_two [] (List.Forall_nil _) _ _ _ B) as (q & Nq & Gq & ->). rewrite (exists_spell ex_two [] T) in X by exact Gq.
    unfold is_there in X. destruct (entry_at ex_two q) eqn:Eq; [|discriminate]. apply En in Eq as [->|[->| ->]]; [done|left; reflexivity|right; reflexivity]. }
  assert (Wn : forall f, wanted ex_two [] [$"//"] ($"import a; ") f -> f = $"/main.slang" \/ f = $"/a.os").
  { intros f W. inversion W as [k i g _ _ (o & _ & Hn & _)|k f' i g _ _ _ [Hn|[_ (o & _ & Hn & _)]]]; subst; eapply Nf; exact Hn. }
  assert (Ia : forall i, text_imports ($"import a; ") i -> i = $"a").
  { intros i Hi. apply text_imports_iff in Hi as (ds & Hd & Hi). vm_compute in Hd. injection Hd as <-. apply elem_of_list_singleton in Hi. exact Hi. }
  assert (Im : forall i, text_imports ($"import main; ") i -> i = $"main").
  { intros i Hi. apply text_imports_iff in Hi as (ds & Hd & Hi). vm_compute in Hd. injection Hd as <-. apply elem_of_list_singleton in Hi. exact Hi. }
  assert (Da : dotted ($"a")) by (exists [$"a"]; split; [discriminate|]; split; [names|reflexivity]).
  assert (Dm : dotted ($"main")) by (exists [$"main"]; split; [discriminate|]; split; [names|reflexivity]).
  apply (C67_succeeds ex_two [] _ _ [] ($"/main.slang") [$"//"]).
  - constructor.
  - exact T.
  - split.
    + intros p n c H. apply En in H as [H|[H|H]]; [destruct p; discriminate| |]; (destruct p as [|? [|]]; [|discriminate H|discriminate H]); injection H as ->; apply elem_of_list_In; vm_compute; tauto.
    + intros p e H. apply En in H as [->|[->| ->]]; repeat constructor; intros X; repeat (apply elem_of_cons in X as [X|X]; [discriminate X|]); inversion X.
  - constructor.
  - intros o. rewrite elem_of_list_singleton. split.
    + intros ->. left. eexists. split; [vm_compute; reflexivity|]. eexists. split; vm_compute; reflexivity.
    + intros [(s & Hs & p & Hp & ->)|(part & p & Hp & _)]; [|inversion Hp]. vm_compute in Hs. injection Hs as <-. vm_compute in Hp. injection Hp as <-. reflexivity.
  - reflexivity.
  - reflexivity.
  - eexists. split; [vm_compute; reflexivity|discriminate].
  - discriminate.
  - constructor.
  - eexists. vm_compute. reflexivity.
  - intros f W. apply Wn in W as [->| ->]; eexists; vm_compute; reflexivity.
  - intros i Hi. apply Ia in Hi as ->. split; [exact Da|]. exists ($"//"), ($"/a.os"). split; [left|split; vm_compute; reflexivity].
  - intros f i W Hi. apply Wn in W as [->| ->].
    + apply Ia in Hi as ->. split; [exact Da|]. left. exists ($"/a.os"). split; vm_compute; reflexivity.
    + apply Im in Hi as ->. split; [exact Dm|]. left. exists ($"/main.slang"). split; vm_compute; reflexivity.
Qed.

(** ** The order of the folders *)
(** The order in which the environment variable names the folders, and how often, makes no difference ... *)
Theorem C67_order_of_folders fs cwd meaning loads p1 p2 filename : Forall (fun p => chr 58 ∉ p) p1 -> Forall (fun p => chr 58 ∉ p) p2 ->
  (forall x, x <> [] -> x ∈ p1 <-> x ∈ p2) ->
  script_from_file fs cwd meaning loads (colons p1) filename = script_from_file fs cwd meaning loads (colons p2) filename.
Proof.
  intros H1 H2 P. unfold script_from_file. destruct (negb (file_exists fs cwd filename)); [reflexivity|]. destruct (full_name fs cwd filename) as [name| | |]; try reflexivity. cbn [rbind].
  destruct (add_folder fs cwd (extract_pathname name) (VM [] [])) as [v0| | |] eqn:A; try reflexivity. cbn [rbind].
  rewrite (env_order fs cwd p1 p2 v0); [reflexivity| |exact H1|exact P|exact H2]. apply add_folder_spec in A as (_ & _ & A & _). apply A. constructor.
Qed.
Print Assumptions C67_order_of_folders.
(** ... so the first folder that has the file need not be the one from which it is loaded. *)
Theorem C67_first_folder_refuted : exists fs v, tree_ok fs /\
  script_from_file fs [] (fun _ _ => Ok tt) (fun _ => true) ($"/new:/lib") ($"/main.slang") = Ok v /\
  names_file fs [] ($"/new/") ($"a") ($"/new/a.os") /\ content_of fs [] ($"/main.slang") = $"import a; " /\ v_imported v = [$"/lib/a.os"].
Proof.
  exists [([$"main.slang"], File ($"import a; ")); ([$"lib"], Dir); ([$"lib"; $"a.os"], File ($" ")); ([$"new"], Dir); ([$"new"; $"a.os"], File ($" "))].
  eexists. split; [|split; [vm_compute; reflexivity|split; [split; vm_compute; reflexivity|split; reflexivity]]].
  apply entries_tree. repeat (constructor; [split; [discriminate|]; split; [names|reflexivity]|]); constructor.
Qed.
Print Assumptions C67_first_folder_refuted.
(** Whether an import is found may depend on the imports before it. *)
Theorem C67_import_order_refuted : exists fs v e, tree_ok fs /\
  content_of fs [] ($"/one.slang") = $"import X.a; import b; " /\ content_of fs [] ($"/two.slang") = $"import b; import X.a; " /\
  script_from_file fs [] (fun _ _ => Ok tt) (fun _ => true) [] ($"/one.slang") = Ok v /\
  script_from_file fs [] (fun _ _ => Ok tt) (fun _ => true) [] ($"/two.slang") = Throw e.
Proof.
  exists [([$"one.slang"], File ($"import X.a; import b; ")); ([$"two.slang"], File ($"import b; import X.a; ")); ([$"X"], Dir);
    ([$"X"; $"a.os"], File ($" ")); ([$"X"; $"b.os"], File ($" "))].
  eexists _, _. split; [|split; [reflexivity|split; [reflexivity|split; vm_compute; reflexivity]]].
  apply entries_tree. repeat (constructor; [split; [discriminate|]; split; [names|reflexivity]|]); constructor.
Qed.
Print Assumptions C67_import_order_refuted.
(** The script itself is not among the loaded files: a library that imports it makes it read a second time. *)
Theorem C67_script_twice_refuted : exists fs v, tree_ok fs /\
  script_from_file fs [] (fun _ _ => Ok tt) (fun _ => true) [] ($"/main.slang") = Ok v /\ v_imported v = [$"/main.slang"; $"/a.os"].
Proof.
  exists [([$"main.slang"], File ($"import a; ")); ([$"a.os"], File ($"import main; "))].
  eexists. split; [|split; vm_compute; reflexivity].
  apply entries_tree. repeat (constructor; [split; [discriminate|]; split; [names|reflexivity]|]); constructor.
Qed.
Print Assumptions C67_script_twice_refuted.
(** A script given as text, with no folder known, cannot ask for an extension: the first of no folders is used. *)
Theorem C67_extension_refuted : create_script [] [] (fun _ _ => Ok tt) (fun _ => true) [] ($"import extension math; ") (VM [] []) = UB /\
  create_script [] [] (fun _ _ => Ok tt) (fun _ => true) [] ($"import extension math; ") (VM [$"/lib/"] []) = Ok (VM [$"/lib/"] []).
Proof. split; vm_compute; reflexivity. Qed.
Print Assumptions C67_extension_refuted.
