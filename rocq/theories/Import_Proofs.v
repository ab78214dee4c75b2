(** The loading of imports: what has been loaded, and that it ends. *)
From Verif Require Import Base Base_Proofs Text_Model Tok_Model Conf_Model Conf_Proofs Decl_Model Import_Model Import_Spec Import_Paths.
From Coq Require Import Sorting.Sorted.

(** The imports the code follows are those the text declares. *)
Lemma refers_iff_all : forall d i, i ∈ refers false d <-> declares_import i d.
Proof.
  fix IH 1.
  assert (L : forall ds i, i ∈ concat (map (refers false) ds) <-> exists d, d ∈ ds /\ declares_import i d).
  { fix IHl 1. intros [|d ds] i; cbn [map concat].
    - split; [intros X; inversion X|intros (d & X & _); inversion X].
    - rewrite elem_of_app, (IH d i), (IHl ds i). split.
      + intros [H|(x & Hx & H)]; [exists d; split; [left|exact H]|exists x; split; [right; exact Hx|exact H]].
      + intros (x & Hx & H). apply elem_of_cons in Hx as [->|Hx]; [left; exact H|right; exists x; split; assumption]. }
  intros d i. destruct d; cbn [refers]; try (split; intros X; inversion X; fail).
  - destruct extension; cbn [Bool.eqb]; split; intros X; try (inversion X; fail).
    + apply elem_of_list_singleton in X as ->. constructor.
    + inversion X; subst. left.
  - rewrite L. split; [intros (x & Hx & H); econstructor; eassumption|intros X; inversion X; subst; eauto].
  - destruct body as [ds|]; [|split; intros X; inversion X].
    rewrite L. split; [intros (x & Hx & H); econstructor; eassumption|intros X; inversion X; subst; eauto].
  - rewrite L. split; [intros (x & Hx & H); econstructor; eassumption|intros X; inversion X; subst; eauto].
Qed.
Lemma refers_iff i d : i ∈ refers false d <-> declares_import i d.
Proof. apply refers_iff_all. Qed.
Lemma imports_iff i ds : i ∈ imports ds <-> exists d, d ∈ ds /\ declares_import i d.
Proof.
  unfold imports. induction ds as [|d ds IH]; cbn [map concat].
  - split; [intros X; inversion X|intros (d & X & _); inversion X].
  - rewrite elem_of_app, (refers_iff i d), IH. split.
    + intros [H|(x & Hx & H)]; [exists d; split; [left|exact H]|exists x; split; [right; exact Hx|exact H]].
    + intros (x & Hx & H). apply elem_of_cons in Hx as [->|Hx]; [left; exact H|right; exists x; split; assumption].
Qed.
Lemma text_imports_iff text i : text_imports text i <-> exists ds, analyse_text text = Ok ds /\ i ∈ imports ds.
Proof.
  unfold text_imports. split.
  - intros (ds & d & A & B & C). exists ds. split; [exact A|]. apply imports_iff. eauto.
  - intros (ds & A & B). apply imports_iff in B as (d & B & C). eauto.
Qed.

Definition canon (g : str) : Prop := exists q, q <> [] /\ Forall good_name q /\ g = spell q.
Definition sorted_folders (l : list str) : Prop := StronglySorted (fun a b => str_ltb a b = true) l.

Lemma insert_in x f l : x ∈ insert_folder f l <-> x = f \/ x ∈ l.
Proof.
  induction l as [|g l IH]; cbn [insert_folder]; [rewrite elem_of_cons; reflexivity|].
  destruct (str_ltb f g) eqn:A; [rewrite !elem_of_cons; tauto|]. destruct (str_ltb g f) eqn:B; [rewrite !elem_of_cons, IH; tauto|].
  assert (f = g) as -> by (apply str_ltb_total; assumption). rewrite !elem_of_cons. tauto.
Qed.
Lemma insert_sorted f l : sorted_folders l -> sorted_folders (insert_folder f l).
Proof.
  intros H. induction H as [|g l Hs IH Hg]; cbn [insert_folder]; [repeat constructor|].
  destruct (str_ltb f g) eqn:A.
  - constructor; [constructor; assumption|]. constructor; [exact A|]. eapply List.Forall_impl; [|exact Hg].
    intros b Hb. cbn in Hb |- *. eapply str_ltb_trans; eauto.
  - destruct (str_ltb g f) eqn:B; [|constructor; assumption]. constructor; [exact IH|]. apply Forall_forall. intros x Hx.
    apply insert_in in Hx as [->|Hx]; [exact B|]. rewrite Forall_forall in Hg. apply Hg. exact Hx.
Qed.

Section Load.
Context (fs : fsys) (cwd : list str) (Cwd : Forall good_name cwd) (T : tree_ok fs).
Context (meaning : list str -> str -> res unit) (loads : str -> bool).

Lemma spell_canon_ext p e : Forall good_name p -> (forall n, good_name n \/ n = [] -> good_name (n ++ e)) -> canon (spell p ++ e).
Proof.
  intros Hp He. destruct p as [|n p] using rev_ind.
  - exists [e]. split; [discriminate|]. split; [constructor; [apply (He []); auto|constructor]|]. cbn. rewrite app_nil_r. reflexivity.
  - clear IHp. rewrite spell_ext. apply Forall_app in Hp as [Hp Hn]. apply Forall_inv in Hn. exists (p ++ [n ++ e]).
    split; [destruct p; discriminate|]. split; [|reflexivity]. apply Forall_app. split; [exact Hp|]. constructor; [apply He; auto|constructor].
Qed.
Lemma build_canon t i g : build_filename fs cwd t i = Ok g -> canon g.
Proof.
  unfold build_filename, real_path. destruct (full_name fs cwd (build_path t i)) as [path| | |] eqn:F; try discriminate. cbn [rbind].
  apply (full_good fs cwd Cwd) in F as (p & Hp & ->). intros H.
  destruct (file_exists fs cwd (spell p ++ $".slang")); [injection H as <-; apply spell_canon_ext; [exact Hp|exact slang_good]|].
  destruct (file_exists fs cwd (spell p ++ $".os")); [injection H as <-; apply spell_canon_ext; [exact Hp|exact os_good]|].
  destruct (full_name fs cwd (build_path (spell p) ($"/All"))) as [all| | |] eqn:F; try discriminate. cbn [rbind] in H.
  apply (full_good fs cwd Cwd) in F as (q & Hq & ->).
  destruct (file_exists fs cwd (spell q ++ $".slang")); injection H as <-; apply spell_canon_ext; solve [exact Hq|exact slang_good|exact os_good].
Qed.
Lemma spell_names p : p <> [] -> Forall good_name p -> names_of (spell p) = [] :: p.
Proof.
  intros N H. rewrite spell_slashed by exact N. rewrite <- (app_nil_r (slashed p)). rewrite names_slashed by auto.
  destruct p; [done|]. cbn [names_of tl]. rewrite app_nil_r. reflexivity.
Qed.
Lemma lookup_in p e : lookup_entry fs p = Some e -> p ∈ map fst fs.
Proof.
  clear T. induction fs as [|[q x] r IH]; [discriminate|]. cbn [lookup_entry map fst]. case_bool_decide as Hq; [subst; left|]. intros H. right. auto.
Qed.

Definition inv (lib : list str) (v : vm) : Prop :=
  (forall o, o ∈ lib -> o ∈ v_folders v) /\ sorted_folders (v_folders v) /\ NoDup (v_imported v) /\
  Forall (fun g => canon g /\ file_exists fs cwd g = true) (v_imported v) /\
  forall o, o ∈ v_folders v -> o ∈ lib \/ exists f, f ∈ v_imported v /\ folder_of_file fs cwd f o.
Definition closed_since (lib : list str) (v v' : vm) : Prop := forall f, f ∈ v_imported v' -> f ∉ v_imported v ->
  forall i, file_imports fs cwd f i -> exists g, g ∈ v_imported v' /\ means fs cwd lib (v_folders v') f i g.
Definition ext (lib : list str) (v v' : vm) : Prop :=
  (forall o, o ∈ v_folders v -> o ∈ v_folders v') /\ (forall g, g ∈ v_imported v -> g ∈ v_imported v') /\ closed_since lib v v'.

Lemma inv_bound lib v : inv lib v -> (length (v_imported v) <= length fs)%nat.
Proof.
  intros (_ & _ & ND & H & _).
  assert (NoDup (map names_of (v_imported v)) /\ forall q, q ∈ map names_of (v_imported v) -> q ∈ map (cons []) (map fst fs)) as [N S].
  { split.
    - clear - ND H. induction ND as [|g l Hg ND IH]; [constructor|]. inversion_clear H as [|? ? Hc Hl]. cbn [map]. constructor; [|auto].
      intros X. apply elem_of_list_fmap in X as (h & Hh & Hin). rewrite Forall_forall in Hl. destruct (Hl h Hin) as [(q & Nq & Gq & ->) _].
      destruct Hc as [(p & Np & Gp & ->) _]. rewrite !spell_names in Hh by assumption. injection Hh as ->. contradiction.
    - intros q Hq. apply elem_of_list_fmap in Hq as (g & -> & Hg). rewrite Forall_forall in H. destruct (H g Hg) as [(p & Np & Gp & ->) X].
      rewrite spell_names by assumption. apply elem_of_list_fmap. exists p. split; [reflexivity|].
      rewrite (exists_spell fs cwd T) in X by assumption. unfold is_there in X. destruct (entry_at fs p) eqn:Ee; [|discriminate].
      destruct p; [done|]. eapply lookup_in. exact Ee. }
  assert (L := submseteq_length _ _ (NoDup_submseteq _ _ N S)). rewrite !map_length in L. exact L.
Qed.

Lemma means_mono lib k k' f i g : (forall o, o ∈ k -> o ∈ k') -> means fs cwd lib k f i g -> means fs cwd lib k' f i g.
Proof.
  intros H [M|[N (o & Ho & R)]]; [left; exact M|right]. split; [exact N|]. exists o. split; [|exact R].
  apply elem_of_cons in Ho as [->|Ho]; [left|right; auto].
Qed.
Lemma ext_refl lib v : ext lib v v.
Proof. repeat split; auto. intros f H N. contradiction. Qed.
Lemma ext_trans lib a b c : ext lib a b -> ext lib b c -> ext lib a c.
Proof.
  intros (F1 & I1 & C1) (F2 & I2 & C2). repeat split; auto. intros f Hf Nf i Hi.
  destruct (decide (f ∈ v_imported b)) as [Hb|Hb]; [|apply C2; auto]. destruct (C1 f Hb Nf i Hi) as (g & Hg & M).
  exists g. split; [auto|]. eapply means_mono; [|exact M]. exact F2.
Qed.
Lemma ext_length lib v v' : inv lib v -> ext lib v v' -> (length (v_imported v) <= length (v_imported v'))%nat.
Proof. intros (_ & _ & N & _) (_ & I & _). apply submseteq_length. apply NoDup_submseteq; assumption. Qed.

(** ** The loops *)
Section Loops.
Context (lib : list str) (ld : str -> vm -> res (bool * vm)).
Hypothesis Ld : forall g v b v', canon g -> inv lib v -> ld g v = Ok (b, v') ->
  inv lib v' /\ ext lib v v' /\ b = file_exists fs cwd g /\ (b = true -> g ∈ v_imported v').

Lemma relative_spec folder files : forall v rest v', inv lib v -> relative fs cwd ld folder files v = Ok (rest, v') ->
  inv lib v' /\ ext lib v v' /\ (forall i, i ∈ rest -> i ∈ files /\ names_none fs cwd folder i) /\
  forall i, i ∈ files -> (exists g, names_file fs cwd folder i g /\ g ∈ v_imported v') \/ i ∈ rest.
Proof.
  induction files as [|i files IH]; intros v rest v' I H; cbn [relative] in H.
  - injection H as <- <-. repeat split; try apply I; auto; try apply ext_refl; intros; inversion H.
  - destruct (build_filename fs cwd folder i) as [g| | |] eqn:B; try discriminate. cbn [rbind] in H.
    destruct (ld g v) as [[b v1]| | |] eqn:L; try discriminate. cbn [rbind fst snd] in H.
    destruct (relative fs cwd ld folder files v1) as [[r v2]| | |] eqn:R; try discriminate. cbn [rbind fst snd] in H. injection H as <- <-.
    destruct (Ld _ _ _ _ (build_canon _ _ _ B) I L) as (I1 & E1 & Hb & G). destruct (IH _ _ _ I1 R) as (I2 & E2 & Hr & Hf).
    split; [exact I2|]. split; [eapply ext_trans; eauto|]. split.
    + intros j Hj. destruct b; [destruct (Hr j Hj); split; [right; auto|assumption]|]. apply elem_of_cons in Hj as [->|Hj].
      * split; [left|]. exists g. split; [exact B|]. symmetry. exact Hb.
      * destruct (Hr j Hj). split; [right; auto|assumption].
    + intros j Hj. apply elem_of_cons in Hj as [->|Hj].
      * destruct b; [|right; left]. left. exists g. split; [split; [exact B|symmetry; exact Hb]|]. apply E2. apply G. reflexivity.
      * destruct (Hf j Hj) as [X|X]; [left; exact X|right]. destruct b; [exact X|right; exact X].
Qed.
Lemma try_spec i folders : forall v v', inv lib v -> try_folders fs cwd ld i folders v = Ok v' ->
  inv lib v' /\ ext lib v v' /\ exists pre folder post g, folders = pre ++ folder :: post /\ Forall (fun o => names_none fs cwd o i) pre /\
    names_file fs cwd folder i g /\ g ∈ v_imported v'.
Proof.
  induction folders as [|o folders IH]; intros v v' I H; cbn [try_folders] in H; [discriminate|].
  destruct (build_filename fs cwd o i) as [g| | |] eqn:B; try discriminate. cbn [rbind] in H.
  destruct (ld g v) as [[b v1]| | |] eqn:L; try discriminate. cbn [rbind fst snd] in H.
  destruct (Ld _ _ _ _ (build_canon _ _ _ B) I L) as (I1 & E1 & Hb & G). destruct b.
  - injection H as <-. split; [exact I1|]. split; [exact E1|]. exists [], o, folders, g. repeat split; auto.
  - destruct (IH _ _ I1 H) as (I2 & E2 & pre & f & post & h & -> & N & F & Hh). split; [exact I2|]. split; [eapply ext_trans; eauto|].
    exists (o :: pre), f, post, h. repeat split; auto; try apply F. constructor; [|exact N]. exists g. auto.
Qed.
Lemma sorted_before l pre f post o : sorted_folders l -> l = pre ++ f :: post -> o ∈ l -> str_ltb o f = true -> o ∈ pre.
Proof.
  intros S -> Ho Lo. apply elem_of_app in Ho as [Ho|Ho]; [exact Ho|exfalso].
  assert (X : sorted_folders (f :: post)).
  { clear - S. induction pre as [|x pre IH]; [exact S|]. apply IH. inversion S; assumption. }
  inversion X as [|? ? _ Hf]; subst. apply elem_of_cons in Ho as [->|Ho]; [rewrite str_ltb_irrefl in Lo; discriminate|].
  rewrite Forall_forall in Hf. specialize (Hf o Ho). rewrite (str_ltb_asym _ _ Lo) in Hf. discriminate.
Qed.
Lemma from_spec extra folders files : forall v v', inv lib v ->
  (forall u, inv lib u -> ext lib v u -> sorted_folders (folders u) /\ (forall o, o ∈ lib -> o ∈ folders u) /\
     forall o, o ∈ folders u -> o ∈ extra ++ v_folders u) ->
  from_folders fs cwd ld folders files v = Ok v' ->
  inv lib v' /\ ext lib v v' /\ forall i, i ∈ files -> exists g, library_file fs cwd lib (extra ++ v_folders v') i g /\ g ∈ v_imported v'.
Proof.
  induction files as [|i files IH]; intros v v' I HF H; cbn [from_folders] in H.
  - injection H as <-. split; [exact I|]. split; [apply ext_refl|]. intros i Hi. inversion Hi.
  - destruct (try_folders fs cwd ld i (folders v) v) as [v1| | |] eqn:L; try discriminate. cbn [rbind] in H.
    destruct (try_spec _ _ _ _ I L) as (I1 & E1 & pre & f & post & g & Hl & N & F & G).
    destruct (IH v1 v' I1) as (I2 & E2 & R); [intros u Iu Eu; apply HF; [exact Iu|eapply ext_trans; eauto]|exact H|].
    split; [exact I2|]. split; [eapply ext_trans; eauto|]. intros j Hj. apply elem_of_cons in Hj as [->|Hj]; [|apply R; exact Hj].
    destruct (HF v I (ext_refl lib v)) as (S & Lb & Ex). exists g. split; [|apply E2; exact G]. exists f. split; [|split; [exact F|]].
    + assert (X : f ∈ extra ++ v_folders v) by (apply Ex; rewrite Hl; apply elem_of_app; right; left).
      apply elem_of_app in X as [X|X]; apply elem_of_app; [left; exact X|right; apply E2, E1; exact X].
    + intros o Ho Lo. rewrite Forall_forall in N. apply N. eapply sorted_before; eauto.
Qed.
End Loops.

Lemma add_folder_spec folder v v' : add_folder fs cwd folder v = Ok v' ->
  v_imported v' = v_imported v /\ (forall o, o ∈ v_folders v -> o ∈ v_folders v') /\ (sorted_folders (v_folders v) -> sorted_folders (v_folders v')) /\
  forall o, o ∈ v_folders v' -> o ∈ v_folders v \/ exists p, full_name fs cwd folder = Ok p /\ o = p ++ $"/".
Proof.
  unfold add_folder. destruct folder as [|c f]; [intros H; injection H as <-; auto|].
  destruct (full_name fs cwd (c :: f)) as [g| | |]; try discriminate. cbn [rbind]. intros H. injection H as <-. cbn [v_imported v_folders].
  split; [reflexivity|]. split; [intros o Ho; apply insert_in; auto|]. split; [apply insert_sorted|].
  intros o Ho. apply insert_in in Ho as [->|Ho]; [right; exists g; auto|left; exact Ho].
Qed.

Lemma load_spec lib n : forall g v b v', canon g -> inv lib v -> load fs cwd meaning loads n g v = Ok (b, v') ->
  inv lib v' /\ ext lib v v' /\ b = file_exists fs cwd g /\ (b = true -> g ∈ v_imported v').
Proof.
  induction n as [|n IH]; intros g v b v' Cg I H; cbn [load] in H; [discriminate|].
  destruct (file_exists fs cwd g) eqn:X; cbn [negb] in H; [|injection H as <- <-; split; [exact I|]; split; [apply ext_refl|]; split; [reflexivity|discriminate]].
  case_bool_decide as Hin; [injection H as <- <-; split; [exact I|]; split; [apply ext_refl|]; split; [reflexivity|auto]|].
  destruct (add_folder fs cwd (extract_pathname g) v) as [v1| | |] eqn:A; try discriminate. cbn [rbind] in H.
  apply add_folder_spec in A as (A1 & A2 & A3 & A4).
  destruct (read_file meaning (v_imported v1) g (content_of fs cwd g)) as [ds| | |] eqn:Rd; try discriminate. cbn [rbind] in H.
  destruct (load_extensions loads (extract_pathname g) (extensions ds)); try discriminate. cbn [rbind v_folders] in H.
  set (v2 := VM (v_folders v1) (g :: v_imported v1)) in *.
  destruct (relative fs cwd (load fs cwd meaning loads n) (extract_pathname g) (imports ds) v2) as [[rest v3]| | |] eqn:Rl; try discriminate. cbn [rbind fst snd] in H.
  destruct (from_folders fs cwd (load fs cwd meaning loads n) (fun _ => insert_folder (extract_pathname g) (v_folders v1)) rest v3) as [v4| | |] eqn:Fr; try discriminate.
  cbn [rbind] in H. injection H as <- <-.
  assert (I2 : inv lib v2).
  { destruct I as (L & S & N & Fa & Kn). unfold v2. split; [intros o Ho; apply A2, L, Ho|]. cbn [v_folders v_imported]. rewrite A1.
    split; [apply A3; exact S|]. split; [constructor; assumption|]. split; [constructor; [split; assumption|exact Fa]|].
    intros o Ho. apply A4 in Ho as [Ho|Ho]; [|right; exists g; split; [left|exact Ho]].
    destruct (Kn o Ho) as [?|(f & Hf & Hp)]; [left; assumption|right; exists f; split; [right; exact Hf|exact Hp]]. }
  destruct (relative_spec lib _ IH _ _ _ _ _ I2 Rl) as (I3 & E3 & Hr & Hf).
  destruct (from_spec lib _ IH [extract_pathname g] (fun _ => insert_folder (extract_pathname g) (v_folders v1)) rest v3 v4 I3) as (I4 & E4 & Ff); [|exact Fr|].
  { intros u Iu Eu. split; [apply insert_sorted; apply I2|]. split.
    - intros o Ho. apply insert_in. right. apply I2. exact Ho.
    - intros o Ho. apply insert_in in Ho as [->|Ho]; [left|right]. apply Eu. apply E3. exact Ho. }
  assert (E24 : ext lib v2 v4) by (eapply ext_trans; eauto).
  split; [exact I4|]. split; [|split; [reflexivity|intros _; apply E24; left]].
  destruct E24 as (EF & EI & EC). split; [intros o Ho; apply EF, A2, Ho|]. split; [intros h Hh; apply EI; right; rewrite A1; exact Hh|].
  intros f Hf4 Nf i Hi. destruct (decide (f = g)) as [->|Ng].
  - assert (Di : i ∈ imports ds).
    { apply text_imports_iff in Hi as (ds' & Hd & Hi). unfold read_file in Rd. rewrite Hd in Rd. cbn [rbind] in Rd. destruct (meaning (v_imported v1) g); try discriminate.
      cbn [rbind] in Rd. injection Rd as <-. exact Hi. }
    destruct (Hf i Di) as [(h & Nh & Hh)|Hir].
    + exists h. split; [apply E4; exact Hh|]. left. exact Nh.
    + destruct (Ff i Hir) as (h & Lh & Hh). exists h. split; [exact Hh|]. right. split; [apply Hr; exact Hir|exact Lh].
  - apply EC; [exact Hf4| |exact Hi]. intros X2. apply elem_of_cons in X2 as [?|X2]; [contradiction|]. rewrite A1 in X2. contradiction.
Qed.
End Load.
