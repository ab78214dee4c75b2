(** The loading of imports: nothing else is loaded, it ends, and it succeeds if everything is there. *)
From Verif Require Import Base Base_Proofs Text_Model Text_Proofs Tok_Model Conf_Model Conf_Proofs Decl_Model Import_Model Import_Spec Import_Paths Import_Proofs.
From Coq Require Import Sorting.Sorted.

Section Load.
Context (fs : fsys) (cwd : list str) (Cwd : Forall good_name cwd) (T : tree_ok fs).
Context (meaning : list str -> str -> res unit) (loads : str -> bool).
Notation inv := (inv fs cwd).
Notation ext := (ext fs cwd).
Notation ld := (load fs cwd meaning loads).

(** ** Only what is needed *)
Section Needed.
Context (lib K : list str) (N : str -> Prop).
Hypothesis NC : forall f i g, N f -> file_imports fs cwd f i -> means fs cwd lib K f i g -> N g.

Section Loops.
Context (n : nat).
Hypothesis HN : forall g v b v', canon g -> inv lib v -> ld n g v = Ok (b, v') -> (forall o, o ∈ v_folders v' -> o ∈ K) ->
  (file_exists fs cwd g = true -> N g) -> forall h, h ∈ v_imported v' -> h ∈ v_imported v \/ N h.

Lemma relative_needed folder files : (forall i g, i ∈ files -> names_file fs cwd folder i g -> N g) ->
  forall v rest v', inv lib v -> relative fs cwd (ld n) folder files v = Ok (rest, v') -> (forall o, o ∈ v_folders v' -> o ∈ K) ->
  forall h, h ∈ v_imported v' -> h ∈ v_imported v \/ N h.
Proof.
  induction files as [|i files IH]; intros HF v rest v' I H HK h Hh; cbn [relative] in H.
  - injection H as <- <-. left. exact Hh.
  - destruct (build_filename fs cwd folder i) as [g| | |] eqn:B; try discriminate. cbn [rbind] in H.
    destruct (ld n g v) as [[b v1]| | |] eqn:L; try discriminate. cbn [rbind fst snd] in H.
    destruct (relative fs cwd (ld n) folder files v1) as [[r v2]| | |] eqn:R; try discriminate. cbn [rbind fst snd] in H. injection H as <- <-.
    assert (Cg := build_canon fs cwd Cwd _ _ _ B).
    destruct (load_spec fs cwd Cwd meaning loads lib n _ _ _ _ Cg I L) as (I1 & E1 & _).
    destruct (relative_spec fs cwd Cwd lib (ld n) (load_spec fs cwd Cwd meaning loads lib n) _ _ _ _ _ I1 R) as (I2 & E2 & _).
    destruct (IH (fun j x Hj => HF j x (elem_of_list_further _ _ _ Hj)) _ _ _ I1 R HK h Hh) as [Hh1|]; [|right; assumption].
    eapply HN; eauto.
    + intros o Ho. apply HK. apply E2. exact Ho.
    + intros X. eapply HF; [left|]. split; eassumption.
Qed.
Lemma try_needed i folders : (forall pre o post g, folders = pre ++ o :: post -> Forall (fun x => names_none fs cwd x i) pre -> names_file fs cwd o i g -> N g) ->
  forall v v', inv lib v -> try_folders fs cwd (ld n) i folders v = Ok v' -> (forall o, o ∈ v_folders v' -> o ∈ K) ->
  forall h, h ∈ v_imported v' -> h ∈ v_imported v \/ N h.
Proof.
  induction folders as [|o folders IH]; intros HF v v' I H HK h Hh; cbn [try_folders] in H; [discriminate|].
  destruct (build_filename fs cwd o i) as [g| | |] eqn:B; try discriminate. cbn [rbind] in H.
  destruct (ld n g v) as [[b v1]| | |] eqn:L; try discriminate. cbn [rbind fst snd] in H.
  assert (Cg := build_canon fs cwd Cwd _ _ _ B).
  destruct (load_spec fs cwd Cwd meaning loads lib n _ _ _ _ Cg I L) as (I1 & E1 & Hb & _). destruct b.
  - injection H as <-. eapply HN; eauto. intros X. eapply (HF [] o folders); [reflexivity|constructor|split; eassumption].
  - destruct (try_spec fs cwd Cwd lib (ld n) (load_spec fs cwd Cwd meaning loads lib n) _ _ _ _ I1 H) as (I2 & E2 & _).
    assert (X : h ∈ v_imported v1 \/ N h).
    { eapply IH; [|exact I1|exact H|exact HK|exact Hh]. intros pre p post x -> Hp Hx. eapply (HF (o :: pre)); [reflexivity| |exact Hx].
      constructor; [exists g; auto|exact Hp]. }
    destruct X as [X|X]; [|right; exact X]. eapply HN; eauto; [|congruence]. intros q Hq. apply HK, E2, Hq.
Qed.
Lemma from_needed extra folders files : 
  (forall i g, i ∈ files -> library_file fs cwd lib (extra ++ K) i g -> N g) ->
  forall v v', inv lib v ->
  (forall u, inv lib u -> ext lib v u -> sorted_folders (folders u) /\ (forall o, o ∈ lib -> o ∈ folders u) /\
     forall o, o ∈ folders u -> o ∈ extra ++ v_folders u) ->
  from_folders fs cwd (ld n) folders files v = Ok v' -> (forall o, o ∈ v_folders v' -> o ∈ K) ->
  forall h, h ∈ v_imported v' -> h ∈ v_imported v \/ N h.
Proof.
  induction files as [|i files IH]; intros HL v v' I HF H HK h Hh; cbn [from_folders] in H.
  - injection H as <-. left. exact Hh.
  - destruct (try_folders fs cwd (ld n) i (folders v) v) as [v1| | |] eqn:L; try discriminate. cbn [rbind] in H.
    destruct (try_spec fs cwd Cwd lib (ld n) (load_spec fs cwd Cwd meaning loads lib n) _ _ _ _ I L) as (I1 & E1 & _).
    assert (HF1 : forall u, inv lib u -> ext lib v1 u -> sorted_folders (folders u) /\ (forall o, o ∈ lib -> o ∈ folders u) /\
     forall o, o ∈ folders u -> o ∈ extra ++ v_folders u).
    { intros u Iu Eu. apply HF; [exact Iu|eapply ext_trans; eauto]. }
    destruct (from_spec fs cwd Cwd lib (ld n) (load_spec fs cwd Cwd meaning loads lib n) extra folders files v1 v' I1 HF1 H) as (I2 & E2 & _).
    assert (X : h ∈ v_imported v1 \/ N h).
    { eapply IH; [|exact I1|exact HF1|exact H|exact HK|exact Hh]. intros j x Hj. apply HL. right. exact Hj. }
    destruct X as [X|X]; [|right; exact X]. eapply try_needed; [|exact I|exact L| |exact X].
    + intros pre o post g Hl Hp Hg. eapply HL; [left|]. destruct (HF v I (ext_refl fs cwd lib v)) as (S & Lb & Ex). exists o. split; [|split; [exact Hg|]].
      * assert (Y : o ∈ extra ++ v_folders v) by (apply Ex; rewrite Hl; apply elem_of_app; right; left).
        apply elem_of_app in Y as [Y|Y]; apply elem_of_app; [left; exact Y|right; apply HK, E2, E1; exact Y].
      * intros q Hq Lq. rewrite Forall_forall in Hp. apply Hp. eapply sorted_before; eauto.
    + intros o Ho. apply HK, E2, Ho.
Qed.
End Loops.
Lemma load_needed n : forall g v b v', canon g -> inv lib v -> ld n g v = Ok (b, v') -> (forall o, o ∈ v_folders v' -> o ∈ K) ->
  (file_exists fs cwd g = true -> N g) -> forall h, h ∈ v_imported v' -> h ∈ v_imported v \/ N h.
Proof.
  induction n as [|n IH]; intros g v b v' Cg I H HK HNg h Hh; cbn [load] in H; [discriminate|].
  destruct (file_exists fs cwd g) eqn:X; cbn [negb] in H; [|injection H as <- <-; left; exact Hh].
  case_bool_decide as Hin; [injection H as <- <-; left; exact Hh|].
  destruct (add_folder fs cwd (extract_pathname g) v) as [v1| | |] eqn:A; try discriminate. cbn [rbind] in H.
  apply add_folder_spec in A as (A1 & A2 & A3 & A4).
  destruct (read_file meaning (v_imported v1) g (content_of fs cwd g)) as [ds| | |] eqn:Rd; try discriminate. cbn [rbind] in H.
  destruct (load_extensions loads (extract_pathname g) (extensions ds)); try discriminate. cbn [rbind v_folders] in H.
  set (v2 := VM (v_folders v1) (g :: v_imported v1)) in *.
  destruct (relative fs cwd (ld n) (extract_pathname g) (imports ds) v2) as [[rest v3]| | |] eqn:Rl; try discriminate. cbn [rbind fst snd] in H.
  destruct (from_folders fs cwd (ld n) (fun _ => insert_folder (extract_pathname g) (v_folders v1)) rest v3) as [v4| | |] eqn:Fr; try discriminate.
  cbn [rbind] in H. injection H as <- <-. specialize (HNg eq_refl).
  assert (I2 : inv lib v2).
  { destruct I as (L & S & ND & Fa & Kn). unfold v2. split; [intros o Ho; apply A2, L, Ho|]. cbn [v_folders v_imported]. rewrite A1.
    split; [apply A3; exact S|]. split; [constructor; assumption|]. split; [constructor; [split; assumption|exact Fa]|].
    intros o Ho. apply A4 in Ho as [Ho|Ho]; [|right; exists g; split; [left|exact Ho]].
    destruct (Kn o Ho) as [?|(f & Hf & Hp)]; [left; assumption|right; exists f; split; [right; exact Hf|exact Hp]]. }
  destruct (relative_spec fs cwd Cwd lib _ (load_spec fs cwd Cwd meaning loads lib n) _ _ _ _ _ I2 Rl) as (I3 & E3 & Hr & _).
  assert (HF : forall u, inv lib u -> ext lib v3 u -> sorted_folders (insert_folder (extract_pathname g) (v_folders v1)) /\
     (forall o, o ∈ lib -> o ∈ insert_folder (extract_pathname g) (v_folders v1)) /\
     forall o, o ∈ insert_folder (extract_pathname g) (v_folders v1) -> o ∈ [extract_pathname g] ++ v_folders u).
  { intros u Iu Eu. split; [apply insert_sorted; apply I2|]. split.
    - intros o Ho. apply insert_in. right. apply I2. exact Ho.
    - intros o Ho. apply insert_in in Ho as [->|Ho]; [left|right]. apply Eu. apply E3. exact Ho. }
  destruct (from_spec fs cwd Cwd lib _ (load_spec fs cwd Cwd meaning loads lib n) [extract_pathname g] _ rest v3 v4 I3 HF Fr) as (I4 & E4 & _).
  assert (Fi : forall i, i ∈ imports ds -> file_imports fs cwd g i).
  { intros i Hi. apply text_imports_iff. exists ds. split; [|exact Hi]. unfold read_file in Rd. destruct (analyse_text (content_of fs cwd g)) as [ds'| | |]; try discriminate.
    cbn [rbind] in Rd. destruct (meaning (v_imported v1) g); try discriminate. cbn [rbind] in Rd. congruence. }
  assert (X3 : h ∈ v_imported v3 \/ N h).
  { eapply (from_needed n IH [extract_pathname g] (fun _ => insert_folder (extract_pathname g) (v_folders v1)) rest); [|exact I3|exact HF|exact Fr|exact HK|exact Hh].
    intros i x Hi Lx. destruct (Hr i Hi) as [Hi1 Hi2]. eapply NC; [exact HNg|apply Fi; exact Hi1|]. right. split; [exact Hi2|exact Lx]. }
  destruct X3 as [X3|X3]; [|right; exact X3].
  assert (X2 : h ∈ v_imported v2 \/ N h).
  { eapply (relative_needed n IH (extract_pathname g) (imports ds)); [|exact I2|exact Rl| |exact X3].
    - intros i x Hi Nx. eapply NC; [exact HNg|apply Fi; exact Hi|]. left. exact Nx.
    - intros o Ho. apply HK, E4, Ho. }
  destruct X2 as [X2|X2]; [|right; exact X2]. unfold v2 in X2. cbn [v_imported] in X2. rewrite A1 in X2.
  apply elem_of_cons in X2 as [->|X2]; [right; exact HNg|left; exact X2].
Qed.
End Needed.
End Load.
