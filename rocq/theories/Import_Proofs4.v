(** The loading of imports succeeds if everything is there. *)
From Verif Require Import Base Base_Proofs Text_Model Text_Proofs Tok_Model Conf_Model Conf_Proofs Decl_Model
  Import_Model Import_Spec Import_Paths Import_Proofs Import_Proofs2 Import_Proofs3.
From Coq Require Import Sorting.Sorted.

Section Load.
Context (fs : fsys) (cwd : list str) (Cwd : Forall good_name cwd) (T : tree_ok fs).
Context (meaning : list str -> str -> res unit) (loads : str -> bool).
Notation inv := (inv fs cwd).
Notation ext := (ext fs cwd).
Notation ld := (load fs cwd meaning loads).

Definition nonblank (l : list str) : list str := base.filter (fun n => n <> []) l.
Definition no_file (l : list str) : Prop := forall pre c, pre `prefix_of` l -> entry_at fs pre <> Some (File c).
Lemma walk_clear (l : list str) : forall acc, Forall (fun n : str => n = [] \/ good_name n) l ->
  (forall pre c, pre `prefix_of` nonblank l -> entry_at fs (acc ++ pre) <> Some (File c)) ->
  exists pre, (walk fs acc l = At (acc ++ pre) \/ walk fs acc l = Missing (acc ++ pre)) /\ pre `prefix_of` nonblank l.
Proof.
  induction l as [|n l IH]; intros acc Hl NF.
  - exists []. rewrite app_nil_r. split; [left; reflexivity|apply prefix_nil].
  - inversion_clear Hl as [|? ? Hn Hl']. destruct (entry_at fs acc) as [[|c]|] eqn:Ea.
    + destruct Hn as [->|Hn].
      * rewrite walk_blank by exact Ea. apply IH; [exact Hl'|exact NF].
      * assert (Fe : nonblank (n :: l) = n :: nonblank l) by (unfold nonblank; rewrite filter_cons_True; [reflexivity|apply Hn]).
        rewrite Fe in *. rewrite walk_cons by assumption. destruct (entry_at fs (acc ++ [n])) eqn:En.
        -- destruct (IH (acc ++ [n]) Hl') as (pre & W & Pr).
           ++ intros pre c Hp. rewrite <- app_assoc. apply NF. cbn [app]. apply prefix_cons. exact Hp.
           ++ exists (n :: pre). rewrite <- app_assoc in W. split; [exact W|apply prefix_cons; exact Pr].
        -- exists [n]. split; [right; reflexivity|]. apply prefix_cons, prefix_nil.
    + exfalso. apply (NF [] c (prefix_nil _)). rewrite app_nil_r. exact Ea.
    + exists []. rewrite app_nil_r. split; [right; cbn [walk]; rewrite Ea; reflexivity|apply prefix_nil].
Qed.
Lemma nonblank_good l : Forall good_name l -> nonblank l = l.
Proof. intros H. induction H as [|n l Hn Hl IH]; [reflexivity|]. unfold nonblank in *. rewrite filter_cons_True; [f_equal; exact IH|apply Hn]. Qed.
Lemma nonblank_app a b : nonblank (a ++ b) = nonblank a ++ nonblank b.
Proof. apply filter_app. Qed.
Lemma nonblank_blank l : nonblank ([] :: l) = nonblank l.
Proof. unfold nonblank. rewrite filter_cons_False; [reflexivity|]. intros H. apply H. reflexivity. Qed.
Definition folder_ok (t : str) : Prop := exists d, Forall good_name d /\ folder_text d t /\ no_file d.
Lemma find_names d t j : folder_text d t -> Forall good_name d -> Forall (fun n => n = [] \/ good_name n) (names_of j) ->
  exists L, find_path fs cwd (t ++ $"/" ++ j) = walk fs [] L /\ nonblank L = d ++ nonblank (names_of j) /\ Forall (fun n => n = [] \/ good_name n) L.
Proof.
  intros Ht Hd Hj. destruct Ht as [->|[-> ->]].
  - destruct d as [|n p].
    + exists ([] :: [] :: [] :: names_of j). split; [reflexivity|]. rewrite !nonblank_blank. split; [reflexivity|]. repeat (constructor; [left; reflexivity|]). exact Hj.
    + exists ([] :: (n :: p) ++ [] :: names_of j). rewrite spell_slashed by discriminate. rewrite <- app_assoc. split.
      * unfold find_path. assert (Hc : exists r, slashed (n :: p) ++ $"/" ++ $"/" ++ j = chr 47 :: r) by (eexists; reflexivity). destruct Hc as (r & Hc).
        rewrite Hc. rewrite bool_decide_true by reflexivity. rewrite <- Hc.
        rewrite (names_slashed (n :: p) ($"/" ++ $"/" ++ j) Hd) by (right; eexists; reflexivity). reflexivity.
      * rewrite nonblank_blank, nonblank_app, nonblank_blank, (nonblank_good (n :: p)) by exact Hd. split; [reflexivity|].
        constructor; [left; reflexivity|]. apply Forall_app. split; [eapply Forall_impl; [exact Hd|]; intros; right; assumption|]. constructor; [left; reflexivity|exact Hj].
  - exists ([] :: [] :: names_of j). split; [reflexivity|]. rewrite !nonblank_blank. split; [reflexivity|]. repeat (constructor; [left; reflexivity|]). exact Hj.
Qed.
Lemma full_clear s L : s <> [] -> find_path fs cwd s = walk fs [] L -> Forall (fun n => n = [] \/ good_name n) L -> no_file (nonblank L) ->
  exists p, full_name fs cwd s = Ok (spell p) /\ p `prefix_of` nonblank L.
Proof.
  intros Ns F G NF. destruct (walk_clear L [] G NF) as (p & W & Pr). exists p. split; [|exact Pr]. unfold full_name. destruct s; [done|]. rewrite F.
  cbn [app] in W. destruct W as [->| ->]; reflexivity.
Qed.
Lemma spell_names_all p j : Forall good_name p -> Forall (fun n => n = [] \/ good_name n) (names_of j) ->
  exists L, find_path fs cwd (spell p ++ $"/" ++ j) = walk fs [] L /\ nonblank L = p ++ nonblank (names_of j) /\ Forall (fun n => n = [] \/ good_name n) L.
Proof.
  intros Hp Hj. destruct p as [|n p]; [apply (find_names [] ($"/") j); [right; split; reflexivity|constructor|exact Hj]|].
  exists ([] :: (n :: p) ++ names_of j). rewrite spell_slashed by discriminate. split.
  - unfold find_path. assert (Hc : exists r, slashed (n :: p) ++ $"/" ++ j = chr 47 :: r) by (eexists; reflexivity). destruct Hc as (r & Hc).
    rewrite Hc. rewrite bool_decide_true by reflexivity. rewrite <- Hc. rewrite (names_slashed (n :: p) ($"/" ++ j) Hp) by (right; eexists; reflexivity). reflexivity.
  - rewrite nonblank_blank, nonblank_app, (nonblank_good (n :: p)) by exact Hp. split; [reflexivity|].
    constructor; [left; reflexivity|]. apply Forall_app. split; [eapply Forall_impl; [exact Hp|]; intros; right; assumption|exact Hj].
Qed.
Hypothesis Td : tidy fs.

Lemma prefix_of_app (pre d ns : list str) : pre `prefix_of` d ++ ns -> pre `prefix_of` d \/ exists k, pre = d ++ k /\ k `prefix_of` ns.
Proof.
  revert d. induction pre as [|a pre IH]; intros d H; [left; apply prefix_nil|]. destruct d as [|b d]; [right; exists (a :: pre); split; [reflexivity|exact H]|].
  cbn [app] in H. assert (a = b) as -> by (eapply prefix_cons_inv_1; exact H). apply prefix_cons_inv_2 in H.
  destruct (IH d H) as [X|(k & -> & X)]; [left; apply prefix_cons; exact X|right; exists k; split; [reflexivity|exact X]].
Qed.
Lemma no_file_plain d ns : no_file d -> Forall (fun n => chr 46 ∉ n) ns -> no_file (d ++ ns).
Proof.
  intros Hd Hn pre c Hp Hc. destruct Td as [T1 _]. destruct (prefix_of_app _ _ _ Hp) as [X|(k & -> & X)]; [eapply Hd; eauto|].
  destruct k as [|x k] using rev_ind; [rewrite app_nil_r in Hc; eapply Hd; [reflexivity|exact Hc]|]. clear IHk.
  rewrite app_assoc in Hc. apply T1 in Hc. destruct X as (r & ->). rewrite <- app_assoc in Hn. apply Forall_app in Hn as [_ Hn]. apply Forall_inv in Hn. contradiction.
Qed.
Lemma no_file_prefix p d : no_file d -> p `prefix_of` d -> no_file p.
Proof. intros H P q c Hq. apply H. etransitivity; eauto. Qed.
Lemma dir_no_file d : entry_at fs d = Some Dir -> no_file d.
Proof.
  intros H pre c (r & ->) Hc. destruct r as [|x r]; [rewrite app_nil_r in H; congruence|].
  assert (X : entry_at fs pre = Some Dir) by (apply (there_prefix fs T pre (x :: r)); [congruence|discriminate]). congruence.
Qed.
Lemma prefix_good (p d : list str) : Forall good_name d -> p `prefix_of` d -> Forall good_name p.
Proof. intros H (r & ->). apply Forall_app in H. apply H. Qed.
Lemma build_ok t ns : folder_ok t -> ns <> [] -> Forall plain ns -> exists g, build_filename fs cwd t (dots ns) = Ok g.
Proof.
  intros (d & Gd & Ft & NF) Nn Hn. unfold build_filename, real_path, build_path. fold (undot (dots ns)).
  assert (Hj : Forall (fun n => n = [] \/ good_name n) (names_of (undot (dots ns)))).
  { rewrite names_dots by assumption. eapply Forall_impl; [exact Hn|]. intros n P. right. apply plain_good. exact P. }
  destruct (find_names d t _ Ft Gd Hj) as (L & FL & NL & GL). rewrite names_dots in NL by assumption. rewrite (nonblank_good ns) in NL by (apply plain_goods; exact Hn).
  assert (NF2 : no_file (d ++ ns)).
  { apply no_file_plain; [exact NF|]. eapply Forall_impl; [exact Hn|]. intros n P. apply P. }
  destruct (full_clear (t ++ $"/" ++ undot (dots ns)) L) as (p & Fp & Pp); [destruct t; discriminate|exact FL|exact GL|rewrite NL; exact NF2|].
  rewrite Fp. cbn [rbind]. destruct (file_exists fs cwd (spell p ++ $".slang")); [eexists; reflexivity|].
  destruct (file_exists fs cwd (spell p ++ $".os")); [eexists; reflexivity|].
  change (map (fun c => if is_dot c then chr 47 else c) ($"/All")) with ($"/All"). rewrite NL in Pp.
  assert (Gp : Forall good_name p) by (eapply prefix_good; [|exact Pp]; apply Forall_app; split; [exact Gd|apply plain_goods; exact Hn]).
  assert (GA : good_name ($"All")).
  { split; [discriminate|]. split; [|split; discriminate]. intros X. repeat (apply elem_of_cons in X as [X|X]; [discriminate X|]). inversion X. }
  assert (Ja : Forall (fun n => n = [] \/ good_name n) (names_of ($"/All"))).
  { change (names_of ($"/All")) with ([[]; $"All"]). constructor; [left; reflexivity|]. constructor; [right; exact GA|constructor]. }
  destruct (spell_names_all p _ Gp Ja) as (M & FM & NM & GM). change (names_of ($"/All")) with ([[]; $"All"]) in NM.
  rewrite nonblank_blank, (nonblank_good [$"All"]) in NM by (constructor; [exact GA|constructor]).
  destruct (full_clear (spell p ++ $"/" ++ $"/All") M) as (q & Fq & _); [destruct p; discriminate|exact FM|exact GM| |].
  { rewrite NM. apply no_file_plain; [eapply no_file_prefix; eassumption|]. constructor; [|constructor].
    intros X. repeat (apply elem_of_cons in X as [X|X]; [discriminate X|]). inversion X. }
  rewrite Fq. cbn [rbind]. case_match; eexists; reflexivity.
Qed.
(** The folder of an existing file *)
Lemma path_of_file q : q <> [] -> Forall good_name q -> entry_at fs q <> None ->
  exists d, entry_at fs d = Some Dir /\ Forall good_name d /\ folder_text d (extract_pathname (spell q)) /\
    full_name fs cwd (extract_pathname (spell q)) = Ok (spell d).
Proof.
  intros Nq Gq Eq. destruct q as [|n d] using rev_ind; [done|]. clear IHd. apply Forall_app in Gq as [Gd Gn]. apply Forall_inv in Gn.
  destruct (entry_at fs (d ++ [n])) as [e|] eqn:Ee; [|done]. destruct Td as [_ T2]. assert (Bn := T2 _ _ Ee). apply Forall_app in Bn as [_ Bn]. apply Forall_inv in Bn.
  assert (Dd : entry_at fs d = Some Dir) by (destruct T as [T1 _]; eapply T1; exact Ee).
  assert (P : extract_pathname (spell (d ++ [n])) = slashed d ++ $"/").
  { assert (Sd : spell (d ++ [n]) = slashed d ++ chr 47 :: n).
    { rewrite spell_slashed by (destruct d; discriminate). unfold slashed. rewrite map_app, concat_app. cbn [map concat]. rewrite app_nil_r. reflexivity. }
    rewrite Sd. unfold extract_pathname. rewrite (split_last_complete is_separator (slashed d) (chr 47) n); [reflexivity|reflexivity|].
    apply Forall_forall. intros c Hc. unfold is_separator. apply not_true_iff_false. intros X. unfold mem in X. apply bool_decide_eq_true in X.
    apply elem_of_cons in X as [->|X]; [contradiction|]. apply elem_of_list_singleton in X as ->. destruct Gn as (_ & Gn & _). contradiction. }
  exists d. split; [exact Dd|]. split; [exact Gd|]. rewrite P. split.
  - destruct d as [|m d]; [right; split; reflexivity|left]. rewrite spell_slashed by discriminate. reflexivity.
  - destruct d as [|m d]; [reflexivity|]. unfold full_name. destruct (slashed (m :: d) ++ $"/") eqn:S0; [discriminate S0|]. rewrite <- S0.
    unfold find_path. assert (Hc : exists r, slashed (m :: d) ++ $"/" = chr 47 :: r) by (eexists; reflexivity). destruct Hc as (r & Hc).
    rewrite Hc. rewrite bool_decide_true by reflexivity. rewrite <- Hc. rewrite (names_slashed (m :: d) ($"/") Gd) by (right; eexists; reflexivity).
    change (tl (names_of ($"/"))) with ([[]] : list str). rewrite walk_blank by reflexivity. rewrite (walk_dirs fs (m :: d) [] _ Gd T Dd). cbn [app].
    rewrite walk_blank by exact Dd. reflexivity.
Qed.
Lemma canon_there g : canon g -> file_exists fs cwd g = true -> exists q, q <> [] /\ Forall good_name q /\ entry_at fs q <> None /\ g = spell q.
Proof.
  intros (q & Nq & Gq & ->) X. rewrite exists_spell in X by assumption. exists q. repeat split; try assumption. unfold is_there in X.
  destruct (entry_at fs q); [discriminate|discriminate X].
Qed.

(** ** Success *)
Section Complete.
Context (lib : list str) (N : str -> Prop).
Definition known_ok (k : list str) : Prop := Forall (fun o => o ∈ lib \/ exists f, N f /\ folder_of_file fs cwd f o) k.
Hypothesis MO : forall b f, meaning b f = Ok tt.
Hypothesis LO : forall x, loads x = true.
Hypothesis NC : forall k f i g, known_ok k -> N f -> file_imports fs cwd f i -> means fs cwd lib k f i g -> N g.
Hypothesis NR : forall f, N f -> exists ds, analyse_text (content_of fs cwd f) = Ok ds.
Hypothesis NP : forall f i, N f -> file_imports fs cwd f i -> exists ns, ns <> [] /\ Forall plain ns /\ i = dots ns.
Hypothesis NT : forall f i, N f -> file_imports fs cwd f i -> (exists g, names_file fs cwd (extract_pathname f) i g) \/ exists o g, o ∈ lib /\ names_file fs cwd o i g.
Definition vok (v : vm) : Prop := inv lib v /\ Forall folder_ok (v_folders v) /\ Forall N (v_imported v).
Lemma vok_known v : vok v -> known_ok (v_folders v).
Proof.
  intros (I & _ & HN). apply Forall_forall. intros o Ho. destruct I as (_ & _ & _ & _ & Kn). destruct (Kn o Ho) as [?|(f & Hf & Ff)]; [left; assumption|].
  right. exists f. split; [|exact Ff]. rewrite Forall_forall in HN. apply HN. exact Hf.
Qed.

Lemma add_vok g v : canon g -> file_exists fs cwd g = true -> Forall folder_ok (v_folders v) ->
  exists v1, add_folder fs cwd (extract_pathname g) v = Ok v1 /\ Forall folder_ok (v_folders v1) /\ folder_ok (extract_pathname g).
Proof.
  intros Cg X F. destruct (canon_there g Cg X) as (q & Nq & Gq & Eq & ->). destruct (path_of_file q Nq Gq Eq) as (d & Dd & Gd & Ft & Fu).
  unfold add_folder. destruct (extract_pathname (spell q)) as [|c t] eqn:P; [unfold folder_text in Ft; exfalso; destruct Ft as [Ft|[_ Ft]]; [destruct d; discriminate Ft|discriminate Ft]|].
  rewrite Fu. cbn [rbind]. eexists. split; [reflexivity|]. cbn [v_folders].
  assert (NFd := dir_no_file d Dd). split.
  - apply Forall_forall. intros o Ho. apply insert_in in Ho as [->|Ho]; [|rewrite Forall_forall in F; auto].
    exists d. split; [exact Gd|]. split; [left; reflexivity|exact NFd].
  - exists d. repeat split; assumption.
Qed.
Section Loops.
Context (n m : nat).
Hypothesis LE : forall g v, canon g -> vok v -> (m <= length (v_imported v))%nat -> (file_exists fs cwd g = true -> N g) ->
  exists b v', ld n g v = Ok (b, v') /\ Forall folder_ok (v_folders v') /\ Forall N (v_imported v').
Lemma relative_complete folder files : folder_ok folder -> (forall i, i ∈ files -> exists ns, ns <> [] /\ Forall plain ns /\ i = dots ns) ->
  (forall i g, i ∈ files -> names_file fs cwd folder i g -> N g) ->
  forall v, vok v -> (m <= length (v_imported v))%nat -> exists r v', relative fs cwd (ld n) folder files v = Ok (r, v') /\ Forall folder_ok (v_folders v') /\ Forall N (v_imported v').
Proof.
  induction files as [|i files IH]; intros FO PL HN v [I F] L; cbn [relative]; [exists [], v; split; [reflexivity|exact F]|].
  destruct (PL i) as (ns & Nn & Hn & Ei); [left|]. destruct (build_ok folder ns FO Nn Hn) as (g & B). rewrite Ei, B. cbn [rbind]. rewrite <- Ei in B.
  assert (Cg := build_canon fs cwd Cwd _ _ _ B).
  destruct (LE g v Cg (conj I F) L) as (b & v1 & Hl & F1); [intros X; eapply HN; [left|split; eassumption]|]. rewrite Hl. cbn [rbind fst snd].
  destruct (load_spec fs cwd Cwd meaning loads lib n _ _ _ _ Cg I Hl) as (I1 & E1 & _).
  destruct (IH FO) with (v := v1) as (r & v2 & R & F2).
  - intros j Hj. apply PL. right. exact Hj.
  - intros j x Hj. apply HN. right. exact Hj.
  - split; assumption.
  - pose proof (ext_length fs cwd lib v v1 I E1). lia.
  - rewrite R. cbn [rbind fst snd]. eexists _, v2. split; [reflexivity|exact F2].
Qed.
Lemma try_complete i folders : Forall folder_ok folders -> (exists ns, ns <> [] /\ Forall plain ns /\ i = dots ns) ->
  (exists o g, o ∈ folders /\ names_file fs cwd o i g) ->
  (forall pre o post g, folders = pre ++ o :: post -> Forall (fun x => names_none fs cwd x i) pre -> names_file fs cwd o i g -> N g) ->
  forall v, vok v -> (m <= length (v_imported v))%nat -> exists v', try_folders fs cwd (ld n) i folders v = Ok v' /\ Forall folder_ok (v_folders v') /\ Forall N (v_imported v').
Proof.
  induction folders as [|o folders IH]; intros FO PL TH HN v [I F] L; cbn [try_folders]; [destruct TH as (o & g & Ho & _); inversion Ho|].
  inversion_clear FO as [|? ? FO1 FO2]. assert (PL' := PL). destruct PL as (ns & Nn & Hn & Ei). destruct (build_ok o ns FO1 Nn Hn) as (g & B). rewrite <- Ei in B. rewrite B. cbn [rbind].
  assert (Cg := build_canon fs cwd Cwd _ _ _ B).
  destruct (LE g v Cg (conj I F) L) as (b & v1 & Hl & F1); [intros X; eapply (HN [] o); [reflexivity|constructor|split; eassumption]|]. rewrite Hl. cbn [rbind fst snd].
  destruct (load_spec fs cwd Cwd meaning loads lib n _ _ _ _ Cg I Hl) as (I1 & E1 & Hb & _). destruct b; [exists v1; split; [reflexivity|exact F1]|].
  apply IH; [exact FO2|exact PL'| | |split; assumption|pose proof (ext_length fs cwd lib v v1 I E1); lia].
  - destruct TH as (o' & g' & Ho & Hg). apply elem_of_cons in Ho as [->|Ho]; [|exists o', g'; split; assumption]. destruct Hg as [Hg1 Hg2]. rewrite B in Hg1. injection Hg1 as <-. congruence.
  - intros pre p post x -> Hp Hx. eapply (HN (o :: pre)); [reflexivity| |exact Hx]. constructor; [exists g; auto|exact Hp].
Qed.
Lemma from_complete extra folders files : 
  (forall i, i ∈ files -> exists ns, ns <> [] /\ Forall plain ns /\ i = dots ns) ->
  (forall i k g, known_ok k -> i ∈ files -> library_file fs cwd lib (extra ++ k) i g -> N g) ->
  (forall i, i ∈ files -> exists o g, (o ∈ extra \/ o ∈ lib) /\ names_file fs cwd o i g) ->
  forall v, vok v -> (m <= length (v_imported v))%nat ->
  (forall u, vok u -> ext lib v u -> sorted_folders (folders u) /\ (forall o, o ∈ lib -> o ∈ folders u) /\ (forall o, o ∈ extra -> o ∈ folders u) /\ Forall folder_ok (folders u) /\
     forall o, o ∈ folders u -> o ∈ extra ++ v_folders u) ->
  exists v', from_folders fs cwd (ld n) folders files v = Ok v' /\ Forall folder_ok (v_folders v') /\ Forall N (v_imported v').
Proof.
  induction files as [|i files IH]; intros PL HL TH v V L HF; cbn [from_folders]; [exists v; split; [reflexivity|apply V]|].
  destruct (HF v V (ext_refl fs cwd lib v)) as (S & Lb & Lx & FO & Ex).
  destruct (try_complete i (folders v)) with (v := v) as (v1 & Ht & F1); [exact FO|apply PL; left| | |exact V|exact L|].
  - destruct (TH i) as (o & g & Ho & Hg); [left|]. exists o, g. split; [destruct Ho; auto|exact Hg].
  - intros pre o post g Hl Hp Hg. eapply (HL i (v_folders v)); [apply vok_known; exact V|left|]. exists o. split; [apply Ex; rewrite Hl; apply elem_of_app; right; left|]. split; [exact Hg|].
    intros q Hq Lq. rewrite Forall_forall in Hp. apply Hp. eapply sorted_before; eauto.
  - rewrite Ht. cbn [rbind]. destruct V as [I F].
    destruct (try_spec fs cwd Cwd lib (ld n) (load_spec fs cwd Cwd meaning loads lib n) _ _ _ _ I Ht) as (I1 & E1 & _).
    apply IH; [intros j Hj; apply PL; right; exact Hj|intros j k x Hk Hj; apply HL; [exact Hk|right; exact Hj]|intros j Hj; apply TH; right; exact Hj|split; assumption| |].
    + pose proof (ext_length fs cwd lib v v1 I E1). lia.
    + intros u Vu Eu. apply HF; [exact Vu|eapply ext_trans; eauto].
Qed.
End Loops.
Lemma load_complete n : forall g v, canon g -> vok v -> (length fs + 1 - n <= length (v_imported v))%nat -> (file_exists fs cwd g = true -> N g) ->
  exists b v', ld n g v = Ok (b, v') /\ Forall folder_ok (v_folders v') /\ Forall N (v_imported v').
Proof.
  induction n as [|n IH]; intros g v Cg [I F] L HNg.
  - pose proof (inv_bound fs cwd T lib v I). lia.
  - cbn [load]. destruct (file_exists fs cwd g) eqn:X; cbn [negb]; [|exists false, v; split; [reflexivity|exact F]]. specialize (HNg eq_refl).
    case_bool_decide as Hin; [exists true, v; split; [reflexivity|exact F]|].
    destruct F as [F FN]. destruct (add_vok g v Cg X F) as (v1 & A & F1 & FOg). rewrite A. cbn [rbind]. assert (I2 := inv_step fs cwd lib g v v1 Cg I X Hin A).
    destruct (NR g HNg) as (ds & Hds). unfold read_file. rewrite Hds. cbn [rbind]. rewrite MO. cbn [rbind].
    unfold load_extensions. rewrite (proj2 (forallb_forall _ _)) by (intros; apply LO). cbn [rbind v_folders].
    set (v2 := VM (v_folders v1) (g :: v_imported v1)) in *.
    assert (Fi : forall i, i ∈ imports ds -> file_imports fs cwd g i) by (intros i Hi; apply text_imports_iff; exists ds; split; assumption).
    assert (L2 : (length fs + 1 - n <= length (v_imported v2))%nat).
    { unfold v2. cbn [v_imported length]. apply add_folder_spec in A as (A1 & _). rewrite A1. lia. }
    destruct (relative_complete n (length fs + 1 - n) IH (extract_pathname g) (imports ds) FOg) with (v := v2) as (rest & v3 & R & F3).
    { intros i Hi. eapply NP; [exact HNg|]. apply Fi. exact Hi. }
    { intros i x Hi Nx. eapply (NC []); [constructor|exact HNg|apply Fi; exact Hi|]. left. exact Nx. }
    { split; [exact I2|split; [exact F1|]]. unfold v2. cbn [v_imported]. assert (A' := A). apply add_folder_spec in A' as (A1 & _). rewrite A1. constructor; assumption. }
    { exact L2. }
    rewrite R. cbn [rbind fst snd].
    destruct (relative_spec fs cwd Cwd lib _ (load_spec fs cwd Cwd meaning loads lib n) _ _ _ _ _ I2 R) as (I3 & E3 & Hr & _).
    destruct (from_complete n (length fs + 1 - n) IH [extract_pathname g] (fun _ => insert_folder (extract_pathname g) (v_folders v1)) rest) with (v := v3) as (v4 & H4 & F4).
    { intros i Hi. eapply NP; [exact HNg|]. apply Fi. apply Hr. exact Hi. }
    { intros i k x Hk Hi Lx. eapply (NC k); [exact Hk|exact HNg|apply Fi; apply Hr; exact Hi|]. right. split; [apply Hr; exact Hi|exact Lx]. }
    { intros i Hi. destruct (NT g i HNg) as [(x & Hx)|(o & x & Ho & Hx)]; [apply Fi, Hr, Hi|exists (extract_pathname g), x; split; [left; left|exact Hx]|exists o, x; split; [right; exact Ho|exact Hx]]. }
    { split; [exact I3|exact F3]. }
    { pose proof (ext_length fs cwd lib v2 v3 I2 E3). lia. }
    { intros u Vu Eu. split; [apply insert_sorted; apply I2|]. split; [intros o Ho; apply insert_in; right; apply I2; exact Ho|].
      split; [intros o Ho; apply elem_of_list_singleton in Ho as ->; apply insert_in; left; reflexivity|]. split.
      - apply Forall_forall. intros o Ho. apply insert_in in Ho as [->|Ho]; [exact FOg|]. rewrite Forall_forall in F1. apply F1. exact Ho.
      - intros o Ho. apply insert_in in Ho as [->|Ho]; [left|right]. apply Eu. apply E3. exact Ho. }
    rewrite H4. cbn [rbind]. exists true, v4. split; [reflexivity|exact F4].
Qed.
End Complete.
End Load.
