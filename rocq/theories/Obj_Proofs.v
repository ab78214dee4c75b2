(** Proofs for Obj_Props: the layers of an object against the flat one of the specification. *)
From Verif Require Import Base Obj_Model Obj_Spec.

Lemma each_forall {A B} (f : A -> res B) l r : each f l = Ok r -> Forall2 (fun a b => f a = Ok b) l r.
Proof.
  revert r. induction l as [|a l IH]; intros r H; cbn in H.
  - injection H as <-. constructor.
  - destruct (f a) eqn:Ha; cbn in H; try done. fold (each f) in H. destruct (each f l) eqn:Hl; cbn in H; try done.
    injection H as <-. constructor; [done|]. by apply IH.
Qed.
Lemma seen_one v : seen 1 v = true.
Proof. by destruct v. Qed.
Lemma seen_zero v : seen 0 v = true.
Proof. by destruct v. Qed.
Lemma str_eqb_true a b : str_eqb a b = true <-> a = b.
Proof. unfold str_eqb. apply bool_decide_eq_true. Qed.
Lemma str_eqb_false a b : str_eqb a b = false <-> a <> b.
Proof. unfold str_eqb. apply bool_decide_eq_false. Qed.
Lemma str_eqb_refl a : str_eqb a a = true.
Proof. by apply str_eqb_true. Qed.
Lemma find_none_all {A} (f : A -> bool) l : (forall x, In x l -> f x = false) -> find f l = None.
Proof. induction l as [|a l IH]; intros H; cbn; [done|]. rewrite (H a) by (by left). apply IH. intros x Hx. apply H. by right. Qed.
Lemma existsb_none {A} (f : A -> bool) l : (forall x, In x l -> f x = false) -> existsb f l = false.
Proof. induction l as [|a l IH]; intros H; cbn; [done|]. rewrite (H a) by (by left). cbn. apply IH. intros x Hx. apply H. by right. Qed.
(** With distinct keys the one element with the key is found. *)
Lemma find_key {A B} (key : A -> B) (f : A -> bool) l a :
  NoDup (map key l) -> In a l -> f a = true -> (forall x, f x = true -> key x = key a) -> find f l = Some a.
Proof.
  intros Hn Hin Hf Hk. induction l as [|x l IH]; [done|]. cbn in *. apply NoDup_cons in Hn as [Hx Hn].
  destruct Hin as [->|Hin]; [by rewrite Hf|].
  destruct (f x) eqn:Hfx.
  - exfalso. apply Hx. rewrite (Hk x Hfx). apply elem_of_list_In. by apply in_map.
  - by apply IH.
Qed.

Scheme ev_mut := Minimality for ev Sort Prop with evx_mut := Minimality for evx Sort Prop with evsx_mut := Minimality for evsx Sort Prop
  with evs_mut := Minimality for evs Sort Prop with does_mut := Minimality for does Sort Prop
  with calls_mut := Minimality for calls Sort Prop with sts_mut := Minimality for sts Sort Prop with stx_mut := Minimality for stx Sort Prop.
Combined Scheme rules_mut from ev_mut, evx_mut, evsx_mut, evs_mut, does_mut, calls_mut, sts_mut, stx_mut.

Ltac bnd H := match type of H with context[rbind ?r _] => let F := fresh "Hb" in destruct r eqn:F; cbn [rbind] in H; try discriminate H end.

Section Sim.
Variable P : prog.
Hypothesis Hsound : sound P.
Hypothesis Hfine : fine P.
Let P1 := Prog (map complete (p_classes P)) (p_funcs P).
Variable L : prog.
Hypothesis Hload : load P = Ok L.

Lemma names_nodup : NoDup (map c_name (p_classes P)).
Proof. apply Hsound. Qed.
Lemma class_unique c k k2 : is_class P c k -> is_class P c k2 -> k = k2.
Proof.
  intros [H1 N1] [H2 N2]. pose proof names_nodup as Hn.
  assert (find (fun x => str_eqb (c_name x) c) (p_classes P) = Some k) as E1.
  { apply (find_key c_name); [done|done|by apply str_eqb_true|]. intros x Hx%str_eqb_true. congruence. }
  assert (find (fun x => str_eqb (c_name x) c) (p_classes P) = Some k2) as E2.
  { apply (find_key c_name); [done|done|by apply str_eqb_true|]. intros x Hx%str_eqb_true. congruence. }
  congruence.
Qed.
Lemma sound_of c k : is_class P c k -> sound_class P k.
Proof. intros [H _]. destruct Hsound as (_ & _ & _ & _ & _ & Hc & _). rewrite Forall_forall in Hc. apply Hc. by apply elem_of_list_In. Qed.

Lemma complete_name k : c_name (complete k) = c_name k.
Proof. unfold complete. by destruct (own_name k 1 w_new). Qed.
Lemma complete_base k : c_base (complete k) = c_base k.
Proof. unfold complete. by destruct (own_name k 1 w_new). Qed.
Lemma complete_fields k : c_fields (complete k) = c_fields k.
Proof. unfold complete. by destruct (own_name k 1 w_new). Qed.
Lemma own_name_iff k n : own_name k 1 n = true <-> exists q, In q (c_methods k) /\ m_name q = n.
Proof.
  unfold own_name. rewrite existsb_exists. split.
  - intros (q & Hq & H). apply andb_true_iff in H as [H%str_eqb_true _]. by exists q.
  - intros (q & Hq & H). exists q. split; [done|]. rewrite seen_one, andb_true_r. by apply str_eqb_true.
Qed.
Lemma complete_methods k q : In q (c_methods (complete k)) <-> has_method k q.
Proof.
  unfold complete, has_method. destruct (own_name k 1 w_new) eqn:Ho.
  - apply own_name_iff in Ho as (r & Hr & Hn). split; [by left|]. intros [H|[H _]]; [done|]. by destruct (H r Hr).
  - cbn [c_methods]. rewrite in_app_iff. split.
    + intros [H|[H|[]]]; [by left|]. right. split; [|done]. intros r Hr Hn. apply not_true_iff_false in Ho. apply Ho.
      apply own_name_iff. by exists r.
    + intros [H|[_ ->]]; [by left|]. right. by left.
Qed.
Lemma complete_signatures k : sound_class P k -> NoDup (map signature (c_methods (complete k))).
Proof.
  intros (_ & Hn & _). unfold complete. destruct (own_name k 1 w_new) eqn:Ho; [done|]. cbn [c_methods]. rewrite map_app. cbn.
  apply NoDup_app. split; [done|]. split; [|apply NoDup_singleton].
  intros x Hx%elem_of_list_In Hy%elem_of_list_singleton. subst x. apply in_map_iff in Hx as (q & Hq & Hin).
  apply not_true_iff_false in Ho. apply Ho. apply own_name_iff. exists q. split; [done|]. unfold signature in Hq. cbn in Hq. by injection Hq.
Qed.

Lemma class_of_P1 c k1 : class_of P1 c = Some k1 -> exists k, is_class P c k /\ k1 = complete k.
Proof.
  unfold class_of. intros [Hin Heq]%find_some. apply str_eqb_true in Heq. cbn in Hin. apply in_map_iff in Hin as (k & <- & Hk).
  exists k. split; [|done]. split; [done|]. by rewrite complete_name in Heq.
Qed.

(** The class [k] of the source and the class of the loaded program. *)
Definition lifted (c : str) (k k' : cls) : Prop :=
  is_class P c k /\ c_name k' = c /\ c_base k' = c_base k /\ c_fields k' = c_fields k /\
  Forall2 (fun q q' => elab_method P1 (Some c) q = Ok q') (c_methods (complete k)) (c_methods k').
Lemma loaded : exists ks fs, L = Prog ks fs /\ Forall2 (fun k k' => elab_class P1 k = Ok k') (map complete (p_classes P)) ks /\
  Forall2 (fun q q' => elab_method P1 None q = Ok q') (p_funcs P) fs.
Proof.
  unfold load in Hload. fold P1 in Hload. destruct (each (elab_class P1) (p_classes P1)) eqn:E1; cbn [rbind] in Hload; try done.
  destruct (each (elab_method P1 None) (p_funcs P1)) eqn:E2; cbn [rbind] in Hload; try done.
  injection Hload as <-. eexists _, _. split; [done|]. split; by apply each_forall.
Qed.
Lemma elab_class_name k k' : elab_class P1 k = Ok k' -> c_name k' = c_name k.
Proof. unfold elab_class. destruct (each _ _); cbn; try done. by intros [= <-]. Qed.
Lemma forall2_find {A B} (R : A -> B -> Prop) (f : A -> bool) (g : B -> bool) l r a :
  (forall x y, R x y -> f x = g y) -> Forall2 R l r -> find f l = Some a -> exists b, find g r = Some b /\ R a b.
Proof.
  intros Hfg H. induction H as [|x y l r Hxy _ IH]; cbn; [done|]. rewrite <- (Hfg _ _ Hxy). destruct (f x); [|done].
  intros [= <-]. by exists y.
Qed.
Lemma forall2_find_none {A B} (R : A -> B -> Prop) (f : A -> bool) (g : B -> bool) l r :
  (forall x y, R x y -> f x = g y) -> Forall2 R l r -> find f l = None -> find g r = None.
Proof.
  intros Hfg H. induction H as [|x y l r Hxy _ IH]; cbn; [done|]. rewrite <- (Hfg _ _ Hxy). by destruct (f x).
Qed.
Lemma class_loaded c k : is_class P c k -> exists k', class_of L c = Some k' /\ lifted c k k'.
Proof.
  intros Hk. destruct loaded as (ks & fs & HL & Hks & _). unfold class_of. rewrite HL. cbn [p_classes].
  assert (find (fun x => str_eqb (c_name x) c) (map complete (p_classes P)) = Some (complete k)) as Hf.
  { destruct Hk as [Hin Hn]. apply (find_key c_name).
    - rewrite map_map. rewrite (map_ext _ c_name complete_name). apply names_nodup.
    - by apply in_map.
    - rewrite complete_name. by apply str_eqb_true.
    - intros x Hx%str_eqb_true. rewrite complete_name. congruence. }
  destruct (forall2_find (fun k k' => elab_class P1 k = Ok k') (fun x => str_eqb (c_name x) c) (fun x => str_eqb (c_name x) c) _ _ _ ltac:(intros x y Hxy; cbn beta in *; by rewrite (elab_class_name _ _ Hxy)) Hks Hf)
    as (k' & Hk' & He).
  exists k'. split; [done|]. unfold elab_class in He. destruct (each _ _) eqn:Hea in He; cbn in He; try done. injection He as <-.
  unfold lifted. cbn. rewrite complete_name, complete_base, complete_fields. destruct Hk as [Hin Hn].
  split_and!; try done. rewrite <- Hn. rewrite complete_name in Hea. by apply each_forall.
Qed.
Lemma elab_method_shape D q q' : elab_method P1 D q = Ok q' ->
  m_vis q' = m_vis q /\ m_ret q' = m_ret q /\ m_name q' = m_name q /\ m_params q' = m_params q.
Proof. unfold elab_method. destruct (controlled q); cbn [negb]; [|done]. destruct (elab_list _ _ _ _ _); cbn; try done. by intros [= <-]. Qed.
Lemma is_method_lift D m i need q q' : elab_method P1 D q = Ok q' -> is_method m i need q = is_method m i need q'.
Proof. intros (H1 & _ & H2 & H3)%elab_method_shape. unfold is_method. by rewrite H1, H2, H3. Qed.
Lemma is_method_fits m i need q : is_method m i need q = true <-> fits m i q /\ seen need (m_vis q) = true.
Proof. unfold is_method, fits. rewrite !andb_true_iff, str_eqb_true, Nat.eqb_eq. tauto. Qed.

Lemma own_found c k k' m i need q : lifted c k k' -> has_method k q -> fits m i q -> seen need (m_vis q) = true ->
  exists q', own_method k' need m i = Some q' /\ elab_method P1 (Some c) q = Ok q'.
Proof.
  intros (Hk & _ & _ & _ & Hm) Hq Hf Hs. unfold own_method.
  apply (forall2_find (fun q q' => elab_method P1 (Some c) q = Ok q') (is_method m i need) _ _ _ _ (fun x y => is_method_lift (Some c) m i need x y) Hm).
  apply (find_key signature).
  - apply complete_signatures. by apply (sound_of c).
  - by apply complete_methods.
  - by apply is_method_fits.
  - intros x [[H1 H2] _]%is_method_fits. destruct Hf as [H3 H4]. unfold signature. congruence.
Qed.
Lemma own_missing c k k' m i need : lifted c k k' -> (forall q, has_method k q -> ~ fits m i q) -> own_method k' need m i = None.
Proof.
  intros (Hk & _ & _ & _ & Hm) Hq. unfold own_method.
  apply (forall2_find_none (fun q q' => elab_method P1 (Some c) q = Ok q') (is_method m i need) _ _ _ (fun x y => is_method_lift (Some c) m i need x y) Hm).
  apply find_none_all. intros x Hx. apply not_true_iff_false. intros [H _]%is_method_fits. apply (Hq x); [|done]. by apply complete_methods.
Qed.
Lemma own_name_missing c k k' need n : lifted c k k' -> (forall q, has_method k q -> m_name q <> n) -> own_name k' need n = false.
Proof.
  intros (Hk & _ & _ & _ & Hm) Hq. unfold own_name. apply existsb_none. intros x Hx.
  apply elem_of_list_In, elem_of_list_lookup in Hx as [j Hj]. destruct (Forall2_lookup_r _ _ _ _ _ Hm Hj) as (q & Hqj & He).
  apply elab_method_shape in He as (_ & _ & He & _).
  assert (m_name x <> n) as Hne. { rewrite He. apply Hq. apply complete_methods. apply elem_of_list_In. by apply elem_of_list_lookup_2 in Hqj. }
  apply str_eqb_false in Hne. by rewrite Hne.
Qed.
Lemma function_found m i q : In q (p_funcs P) -> fits m i q -> exists q', func L m i = Some q' /\ elab_method P1 None q = Ok q'.
Proof.
  intros Hin Hf. destruct loaded as (ks & fs & HL & _ & Hfs). unfold func. rewrite HL. cbn [p_funcs].
  apply (forall2_find (fun q q' => elab_method P1 None q = Ok q') (is_method m i 1) _ _ _ _ (fun x y => is_method_lift None m i 1 x y) Hfs).
  apply (find_key signature); [apply Hsound|done| |].
  - apply is_method_fits. split; [done|]. apply seen_one.
  - intros x [[H1 H2] _]%is_method_fits. destruct Hf as [H3 H4]. unfold signature. congruence.
Qed.

(** ** The chain of classes *)
Inductive pos : str -> str -> nat -> Prop :=
| pos_here c : pos c c 0
| pos_up c k b d j : is_class P c k -> c_base k = Some b -> pos b d j -> pos c d (S j).
Inductive height : str -> nat -> Prop :=
| height_top c k : is_class P c k -> c_base k = None -> height c 1
| height_up c k b n : is_class P c k -> c_base k = Some b -> height b n -> height c (S n).
Lemma height_det c n m : height c n -> height c m -> n = m.
Proof.
  intros H. revert m. induction H as [c k Hk Hb|c k b n Hk Hb _ IH]; intros m Hm; inversion Hm as [c' k' Hk' Hb'|c' k' b' n' Hk' Hb' Hn']; subst;
    pose proof (class_unique _ _ _ Hk Hk'); subst k'; try congruence.
  f_equal. apply IH. congruence.
Qed.
Lemma pos_height c d j n : pos c d j -> height c n -> exists m, n = j + m /\ height d m.
Proof.
  intros H. revert n. induction H as [c|c k b d j Hk Hb _ IH]; intros n Hn; [by exists n|].
  inversion Hn as [c' k' Hk' Hb'|c' k' b' n' Hk' Hb' Hn']; subst; pose proof (class_unique _ _ _ Hk Hk'); subst k'; [congruence|].
  assert (b' = b) as -> by congruence. destruct (IH _ Hn') as (m & -> & Hm). by exists m.
Qed.
Lemma pos_isa c d j : pos c d j -> isa P c d.
Proof. induction 1 as [|c k b d j Hk Hb _ IH]; [constructor|]. by eapply isa_up. Qed.
Lemma isa_pos c d : isa P c d -> exists j, pos c d j.
Proof. induction 1 as [c|c k b d Hk Hb _ [j IH]]; [exists 0; constructor|]. exists (S j). by eapply pos_up. Qed.
Lemma pos_det c d i j n : height c n -> pos c d i -> pos c d j -> i = j.
Proof.
  intros Hn Hi Hj. destruct (pos_height _ _ _ _ Hi Hn) as (m1 & E1 & H1). destruct (pos_height _ _ _ _ Hj Hn) as (m2 & E2 & H2).
  pose proof (height_det _ _ _ H1 H2). lia.
Qed.
Lemma isa_trans c d e : isa P c d -> isa P d e -> isa P c e.
Proof. induction 1 as [|c k b d Hk Hb _ IH]; [done|]. intros H. eapply isa_up; eauto. Qed.
Lemma pos_trans c d e i j : pos c d i -> pos d e j -> pos c e (i + j).
Proof. induction 1 as [|c k b d i Hk Hb _ IH]; [done|]. intros H. cbn. eapply pos_up; eauto. Qed.
Lemma no_loop c k b j n : is_class P c k -> c_base k = Some b -> height c n -> ~ pos b c j.
Proof. intros Hk Hb Hn Hp. assert (pos c c (S j)) as H by (by eapply pos_up). pose proof (pos_det _ _ _ _ _ Hn H (pos_here c)). lia. Qed.
Lemma pos_below c d j : pos c d (S j) -> exists e k, is_class P e k /\ c_base k = Some d.
Proof.
  remember (S j) as i eqn:Hi. intros Hp. revert j Hi. induction Hp as [|c k b d i Hk Hb Hp IH]; intros j Hi; [done|]. injection Hi as ->.
  inversion Hp as [|c' k' b' d' j' Hk' Hb' Hp']; subst; [by exists c, k|]. by eapply IH.
Qed.
Lemma height_bound c n : height c n -> n <= length (p_classes P).
Proof.
  intros Hn.
  assert (exists cs, length cs = n /\ NoDup cs /\ (forall x, In x cs -> In x (map c_name (p_classes P)) /\ isa P c x)) as (cs & <- & Hd & Hin).
  { induction Hn as [c k [Hk Hc] Hb|c k b n Hk Hb Hn IH].
    - exists [c]. split; [done|]. split; [apply NoDup_singleton|]. intros x [<-|[]]. split; [|constructor]. rewrite <- Hc. by apply in_map.
    - destruct IH as (cs & Hlen & Hd & Hin). exists (c :: cs). split; [cbn; lia|]. split.
      + apply NoDup_cons. split; [|done]. intros Hx%elem_of_list_In. apply Hin in Hx as [_ Hx]. apply isa_pos in Hx as [j Hj].
        eapply (no_loop c k b j (S n)); try done. by eapply height_up.
      + intros x [<-|Hx].
        * split; [|constructor]. destruct Hk as [Hk Hc]. rewrite <- Hc. by apply in_map.
        * apply Hin in Hx as [H1 H2]. split; [done|]. by eapply isa_up. }
  rewrite <- (map_length c_name (p_classes P)). apply NoDup_incl_length; [by apply NoDup_ListNoDup|]. intros x Hx. by apply Hin.
Qed.

(** ** Layers *)
Inductive shape : str -> obj -> Prop :=
| shape_top c k k' F : lifted c k k' -> c_base k = None -> map fst F = map f_name (c_fields k) -> shape c [Layer k' F]
| shape_up c k k' F b r : lifted c k k' -> c_base k = Some b -> map fst F = map f_name (c_fields k) -> shape b r -> shape c (Layer k' F :: r).
Lemma shape_height c ls : shape c ls -> height c (length ls).
Proof.
  induction 1 as [c k k' F Hk Hb HF|c k k' F b r Hk Hb HF _ IH]; cbn.
  - eapply height_top; [apply Hk|done].
  - eapply height_up; [apply Hk|done|done].
Qed.
Lemma shape_nonempty c ls : shape c ls -> ls <> [].
Proof. by destruct 1. Qed.
Lemma shape_drop c d j ls : shape c ls -> pos c d j -> shape d (drop j ls).
Proof.
  intros Hs Hp. revert ls Hs. induction Hp as [|c k b d j Hk Hb _ IH]; intros ls Hs; [done|].
  inversion Hs as [c' k1 k' F Hl Hb' HF|c' k1 k' F b' r Hl Hb' HF Hr]; subst; pose proof (class_unique _ _ _ Hk (proj1 Hl)); subst k1; [congruence|].
  cbn. apply IH. congruence.
Qed.
(** The layer at some place of the chain. *)
Lemma shape_at c ls d j : shape c ls -> pos c d j -> exists k k' F, ls !! j = Some (Layer k' F) /\ lifted d k k' /\ map fst F = map f_name (c_fields k).
Proof.
  intros Hs Hp. pose proof (shape_drop _ _ _ _ Hs Hp) as Hd. assert (ls !! j = drop j ls !! 0) as -> by (rewrite lookup_drop; f_equal; lia).
  destruct Hd as [d k k' F Hl Hb HF|d k k' F b r Hl Hb HF Hr]; by exists k, k', F.
Qed.
Lemma shape_layer c ls j l : shape c ls -> ls !! j = Some l ->
  exists d k, pos c d j /\ lifted d k (l_cls l) /\ map fst (l_fields l) = map f_name (c_fields k).
Proof.
  intros Hs. revert j. induction Hs as [c k k' F Hk Hb HF|c k k' F b r Hk Hb HF _ IH]; intros j Hj.
  - destruct j; [|done]. injection Hj as <-. exists c, k. split; [constructor|done].
  - destruct j as [|j].
    + injection Hj as <-. exists c, k. split; [constructor|done].
    + destruct (IH j Hj) as (d & k1 & Hp & H). exists d, k1. split; [|done]. eapply pos_up; [apply Hk|done|done].
Qed.
Lemma own_field_in k n f : In f (c_fields k) -> f_name f = n -> NoDup (map f_name (c_fields k)) -> forall need, seen need (f_vis f) = true -> own_field k need n = Some f.
Proof.
  intros Hin Hn Hd need Hs. unfold own_field. apply (find_key f_name); try done.
  - rewrite Hs, andb_true_r. by apply str_eqb_true.
  - intros x [Hx%str_eqb_true _]%andb_true_iff. congruence.
Qed.
Lemma own_field_none k n : (forall f, In f (c_fields k) -> f_name f <> n) -> forall need, own_field k need n = None.
Proof. intros H need. apply find_none_all. intros f Hf. apply andb_false_iff. left. apply str_eqb_false. by apply H. Qed.

(** A member name occurs once in the chain of an object, and is not the name of a method. *)
Lemma field_once c d1 k1 f1 d2 k2 f2 :
  isa P c d1 -> is_class P d1 k1 -> In f1 (c_fields k1) -> isa P c d2 -> is_class P d2 k2 -> In f2 (c_fields k2) -> f_name f1 = f_name f2 -> d1 = d2.
Proof.
  intros Hi1 Hk1 Hf1 Hi2 Hk2 Hf2 Hn. pose proof (sound_of _ _ Hk2) as (_ & _ & _ & _ & Hx).
  destruct Hk2 as [Hk2 Hc2]. rewrite <- Hc2. destruct (Hx c d1 k1 f2) as [H _]; try done; [by rewrite Hc2|]. by apply (H f1).
Qed.
Lemma field_not_method c d1 k1 f1 d2 k2 q :
  isa P c d1 -> is_class P d1 k1 -> In f1 (c_fields k1) -> isa P c d2 -> is_class P d2 k2 -> has_method k2 q -> m_name q <> f_name f1.
Proof.
  intros Hi1 Hk1 Hf1 Hi2 Hk2 Hq. pose proof (sound_of _ _ Hk1) as (_ & _ & _ & _ & Hx).
  destruct Hk1 as [Hk1 Hc1]. destruct (Hx c d2 k2 f1) as [_ H]; try done; [by rewrite Hc1|]. by apply H.
Qed.
Lemma field_name_fine c k f : is_class P c k -> In f (c_fields k) -> f_name f <> w_this /\ f_name f <> w_base.
Proof. intros Hk Hf. pose proof (sound_of _ _ Hk) as (_ & _ & Hx & _). by apply Hx. Qed.

Lemma own_sym_skip c d j k1 f ls l r k : isa P c d -> is_class P d k1 -> In f (c_fields k1) -> pos c d (S j) -> shape c ls ->
  ls = l :: r -> lifted c k (l_cls l) -> forall hb need, own_sym l hb need (f_name f) = None.
Proof.
  intros Hi Hk1 Hf Hp Hs -> Hl hb need. unfold own_sym. pose proof Hl as (Hk & _).
  assert (forall g, In g (c_fields k) -> f_name g <> f_name f) as Hno.
  { intros g Hg Hn. assert (c = d) as ->. { eapply (field_once c c k g d k1 f); try done. constructor. }
    pose proof (pos_det _ _ _ _ _ (shape_height _ _ Hs) Hp (pos_here d)). lia. }
  rewrite own_field_none by (destruct Hl as (_ & _ & _ & -> & _); done).
  assert (str_eqb (f_name f) w_base = false) as ->. { apply str_eqb_false. apply (field_name_fine d k1 f Hk1 Hf). }
  cbn [andb]. erewrite own_name_missing; [done|apply Hl|]. intros q Hq. apply (field_not_method c d k1 f c k q); try done. constructor.
Qed.
(** Members are found from any layer at or below theirs. *)
Lemma resolve_seen c ls d j k f need only :
  shape c ls -> pos c d j -> is_class P d k -> In f (c_fields k) -> 1 <= need -> seen need (f_vis f) = true ->
  obj_resolve ls only need (f_name f) = Some (j, SymField).
Proof.
  intros Hs Hp Hk Hf Hn Hv. revert ls only Hs. induction Hp as [c|c kc b d j Hkc Hb Hp IH]; intros ls only Hs.
  - destruct (shape_at _ _ _ _ Hs (pos_here c)) as (k0 & k' & F & Hl & Hli & HF). destruct ls as [|l r]; [done|]. injection Hl as ->.
    pose proof (class_unique _ _ _ Hk (proj1 Hli)); subst k0.
    cbn [obj_resolve]. unfold own_sym. cbn [l_cls]. erewrite (own_field_in k' (f_name f) f); try done.
    + destruct Hli as (_ & _ & _ & -> & _). done.
    + destruct Hli as (_ & _ & _ & -> & _). by apply (sound_of c).
  - assert (pos c d (S j)) as Hp1 by (by eapply pos_up).
    destruct (shape_at _ _ _ _ Hs (pos_here c)) as (k0 & k' & F & Hl & Hli & HF). destruct ls as [|l r]; [done|]. injection Hl as ->.
    pose proof (shape_drop _ _ 1 _ Hs ltac:(eapply pos_up; [done|done|constructor])) as Hr. cbn in Hr. rewrite drop_0 in Hr.
    cbn [obj_resolve]. rewrite (own_sym_skip c d j k f _ _ _ _ (pos_isa _ _ _ Hp1) Hk Hf Hp1 Hs eq_refl Hli).
    assert (need =? 0 = false) as -> by (apply Nat.eqb_neq; lia). by rewrite (IH Hk r true Hr).
Qed.
Lemma resolve_any c ls d j k f :
  shape c ls -> pos c d j -> is_class P d k -> In f (c_fields k) -> (j = 0 \/ f_vis f <> Private) ->
  obj_resolve ls false 0 (f_name f) = Some (j, SymField).
Proof.
  intros Hs Hp Hk Hf Hv. destruct Hp as [c|c kc b d j Hkc Hb Hp].
  - destruct (shape_at _ _ _ _ Hs (pos_here c)) as (k0 & k' & F & Hl & Hli & HF). destruct ls as [|l r]; [done|]. injection Hl as ->.
    pose proof (class_unique _ _ _ Hk (proj1 Hli)); subst k0.
    cbn [obj_resolve]. unfold own_sym. cbn [l_cls]. erewrite (own_field_in k' (f_name f) f); try done.
    + destruct Hli as (_ & _ & _ & -> & _). done.
    + destruct Hli as (_ & _ & _ & -> & _). by apply (sound_of c).
  - assert (pos c d (S j)) as Hp1 by (by eapply pos_up).
    destruct (shape_at _ _ _ _ Hs (pos_here c)) as (k0 & k' & F & Hl & Hli & HF). destruct ls as [|l r]; [done|]. injection Hl as ->.
    pose proof (shape_drop _ _ 1 _ Hs ltac:(eapply pos_up; [done|done|constructor])) as Hr. cbn in Hr. rewrite drop_0 in Hr.
    cbn [obj_resolve]. rewrite (own_sym_skip c d j k f _ _ _ _ (pos_isa _ _ _ Hp1) Hk Hf Hp1 Hs eq_refl Hli).
    cbn [Nat.eqb]. rewrite (resolve_seen b r d j k f); try done; [lia|]. destruct Hv as [?|Hv]; [lia|]. by destruct (f_vis f).
Qed.
Lemma resolve_base c ls k b only need : shape c ls -> is_class P c k -> c_base k = Some b -> obj_resolve ls only need w_base = Some (0, SymBase).
Proof.
  intros Hs Hk Hb. inversion Hs as [c' k1 k' F Hl Hb' HF|c' k1 k' F b' r Hl Hb' HF Hr]; subst; pose proof (class_unique _ _ _ Hk (proj1 Hl)); subst k1; [congruence|].
  cbn [obj_resolve]. unfold own_sym. cbn [l_cls]. rewrite own_field_none.
  - rewrite str_eqb_refl. apply shape_nonempty in Hr. by destruct r.
  - destruct Hl as (_ & _ & _ & -> & _). intros f Hf. apply (field_name_fine c k f Hk Hf).
Qed.

(** Methods: the nearest one. *)
Lemma method_picked c m i d q ls only : picks P c m i d q -> shape c ls ->
  exists j q', obj_method L ls only 1 m i = Some (InLayer j q') /\ pos c d j /\ elab_method P1 (Some d) q = Ok q'.
Proof.
  intros Hp. revert ls only. induction Hp as [c k m i q Hk Hq Hf|c k m i b d q Hk Hno Hb Hp IH]; intros ls only Hs.
  - destruct (shape_at _ _ _ _ Hs (pos_here c)) as (k0 & k' & F & Hl & Hli & HF). destruct ls as [|l r]; [done|]. injection Hl as ->.
    pose proof (class_unique _ _ _ Hk (proj1 Hli)); subst k0. destruct (own_found c k k' m i 1 q Hli Hq Hf (seen_one _)) as (q' & Ho & He).
    exists 0, q'. cbn [obj_method l_cls]. rewrite Ho. split; [by destruct only|]. split; [constructor|done].
  - destruct (shape_at _ _ _ _ Hs (pos_here c)) as (k0 & k' & F & Hl & Hli & HF). destruct ls as [|l r]; [done|]. injection Hl as ->.
    pose proof (class_unique _ _ _ Hk (proj1 Hli)); subst k0.
    pose proof (shape_drop _ _ 1 _ Hs ltac:(eapply pos_up; [done|done|constructor])) as Hr. cbn in Hr. rewrite drop_0 in Hr.
    destruct (IH r true Hr) as (j & q' & Ho & Hpj & He). exists (S j), q'. cbn [obj_method l_cls].
    rewrite (own_missing c k k' m i 1 Hli Hno). cbn [Nat.eqb]. rewrite Ho. cbn [up].
    split; [by destruct only|]. split; [by eapply pos_up|done].
Qed.
Lemma method_absent c m i ls need : (forall d k q, isa P c d -> is_class P d k -> has_method k q -> m_name q <> m) -> shape c ls ->
  obj_method L ls true need m i = None.
Proof.
  intros Hno Hs. revert need. induction Hs as [c k k' F Hl Hb HF|c k k' F b r Hl Hb HF Hr IH]; intros need.
  - cbn [obj_method l_cls]. rewrite (own_missing c k k' m i need Hl); [by destruct (need =? 0)|]. intros q Hq [Hn _]. by eapply Hno; [constructor|apply Hl|..].
  - assert (forall d k q, isa P b d -> is_class P d k -> has_method k q -> m_name q <> m) as Hb'.
    { intros d k1 q Hi Hk1 Hq. eapply Hno; try done. eapply isa_up; [apply Hl|done|done]. }
    cbn [obj_method l_cls]. rewrite (own_missing c k k' m i need Hl).
    + rewrite !(IH Hb'). by destruct (need =? 0).
    + intros q Hq [Hn _]. by eapply Hno; [constructor|apply Hl|..].
Qed.
Lemma method_global c m i ls q : (forall d k q, isa P c d -> is_class P d k -> has_method k q -> m_name q <> m) -> shape c ls -> func L m i = Some q ->
  obj_method L ls false 1 m i = Some (InGlobal q).
Proof.
  intros Hno Hs Hf. destruct Hs as [c k k' F Hl Hb HF|c k k' F b r Hl Hb HF Hr].
  - cbn [obj_method l_cls]. rewrite (own_missing c k k' m i 1 Hl); [|intros x Hx [Hn _]; by eapply Hno; [constructor|apply Hl|..]].
    unfold global. by rewrite Hf.
  - assert (forall d k q, isa P b d -> is_class P d k -> has_method k q -> m_name q <> m) as Hb'.
    { intros d k1 x Hi Hk1 Hq. eapply Hno; try done. eapply isa_up; [apply Hl|done|done]. }
    cbn [obj_method l_cls]. rewrite (own_missing c k k' m i 1 Hl); [|intros x Hx [Hn _]; by eapply Hno; [constructor|apply Hl|..]].
    cbn [Nat.eqb]. rewrite (method_absent b m i r 1 Hb' Hr). unfold global. by rewrite Hf.
Qed.
Lemma picks_below c m i d e q j n : height c n -> pos c d j -> picks P c m i e q ->
  (forall c1 k r, isa P c1 d -> c1 <> d -> is_class P c1 k -> has_method k r -> ~ fits m i r) -> picks P d m i e q.
Proof.
  intros Hn Hp. revert n Hn. induction Hp as [|c k b d j Hk Hb Hp IH]; intros n Hn Hpi Hno; [done|].
  assert (isa P c d) as Hi by (eapply isa_up; [done|done|by eapply pos_isa]).
  assert (c <> d) as Hne. { intros ->. assert (pos d d (S j)) as Hl by (by eapply pos_up). pose proof (pos_det _ _ _ _ _ Hn Hl (pos_here d)). lia. }
  inversion Hn as [c' k' Hk' Hb'|c' k' b' n' Hk' Hb' Hn']; subst; pose proof (class_unique _ _ _ Hk Hk'); subst k'; [congruence|].
  assert (b' = b) as -> by congruence.
  inversion Hpi as [c' k' m' i' q' Hk1 Hq Hf|c' k' m' i' b' d' q' Hk1 Hnot Hb1 Hpi']; subst; pose proof (class_unique _ _ _ Hk Hk1); subst k'.
  - exfalso. by eapply (Hno e k q).
  - assert (b' = b) as -> by congruence. by eapply IH.
Qed.

(** ** Relations *)
Definition rel (v : bval) (w : value) : Prop :=
  match v, w with
  | BInt x, VInt y => x = y
  | BBool x, VBool y => x = y
  | BObj a, VObj b => a = b
  | BNull t, VNull _ u => t = u
  | BVoid, VVoid => True
  | _, _ => False
  end.
Definition relo (v : option bval) (w : option value) : Prop :=
  match v, w with Some v, Some w => rel v w | None, None => True | _, _ => False end.
Definition rel_obj (o : bobj) (ls : obj) : Prop :=
  shape (o_class o) ls /\
  (forall j l n, ls !! j = Some l -> In n (map fst (l_fields l)) -> exists v w, o_member o n = Some v /\ get n (l_fields l) = Some w /\ rel v w) /\
  (forall n v, o_member o n = Some v -> field_of P (o_class o) n).
Definition rel_heap (H : bheap) (h : list obj) : Prop := Forall2 rel_obj H h.
Definition rel_state (B : bstate) (st : state) : Prop := rel_heap (b_heap B) (s_heap st) /\ b_out B = s_out st.
Definition keeps (H H' : bheap) : Prop :=
  forall a o, H !! a = Some o -> exists o', H' !! a = Some o' /\ o_class o' = o_class o /\ forall n, o_member o' n = None <-> o_member o n = None.
Definition cls_of (s : self) : option str := option_map snd s.
Definition rel_self (H : bheap) (s : self) (q : option ptr) : Prop :=
  match s with
  | None => q = None
  | Some (a, d) => exists o j, q = Some (a, j) /\ H !! a = Some o /\ pos (o_class o) d j
  end.
Definition rel_block (m : str -> option bval) (b : list (str * value)) : Prop := forall x, relo (m x) (get x b).
Definition rel_frame (H : bheap) (s : self) (E : benv) (fr : frame) : Prop :=
  Forall2 rel_block E (fr_vars fr) /\
  (forall m x v, m ∈ E -> m x = Some v -> fine_local P (cls_of s) x) /\
  fr_this fr = fr_home fr /\ rel_self H s (fr_home fr).

Lemma keeps_refl H : keeps H H.
Proof. intros a o Ho. by exists o. Qed.
Lemma keeps_trans H1 H2 H3 : keeps H1 H2 -> keeps H2 H3 -> keeps H1 H3.
Proof.
  intros A B a o Ho. destruct (A a o Ho) as (o1 & H & C & N). destruct (B a o1 H) as (o2 & H' & C' & N').
  exists o2. split_and!; [done|congruence|]. intros n. by rewrite N', N.
Qed.
Lemma rel_self_keeps H H' s q : keeps H H' -> rel_self H s q -> rel_self H' s q.
Proof.
  intros K. destruct s as [[a d]|]; [|done]. intros (o & j & Hq & Ho & Hp). destruct (K a o Ho) as (o' & Ho' & Hc & _).
  exists o', j. split_and!; [done|done|congruence].
Qed.
Lemma rel_frame_keeps H H' s E fr : keeps H H' -> rel_frame H s E fr -> rel_frame H' s E fr.
Proof. intros K (A & B & C & D). split_and!; try done. by eapply rel_self_keeps. Qed.

Lemma get_cons {A} x n (v : A) l : get x ((n, v) :: l) = if str_eqb n x then Some v else get x l.
Proof. unfold get. cbn. by destruct (str_eqb n x). Qed.
Lemma get_in {A} x (l : list (str * A)) : In x (map fst l) <-> exists v, get x l = Some v.
Proof.
  induction l as [|[n v] l IH]; cbn [map fst In].
  - split; [done|]. by intros [v Hv].
  - rewrite get_cons. destruct (str_eqb n x) eqn:Hs.
    + apply str_eqb_true in Hs. split; [by eexists|by left].
    + apply str_eqb_false in Hs. rewrite IH. split; [intros [?|?]; done|by right].
Qed.
Lemma get_put {A} x n (v w : A) l : get n l = Some w -> get x (put n v l) = if str_eqb n x then Some v else get x l.
Proof.
  induction l as [|[y u] l IH]; [done|]. rewrite get_cons. cbn [put fst]. destruct (str_eqb y n) eqn:Hy.
  - intros _. rewrite !get_cons. apply str_eqb_true in Hy. subst y. by destruct (str_eqb n x).
  - intros Hg. rewrite !get_cons. rewrite (IH Hg). destruct (str_eqb y x) eqn:Hx; [|done].
    apply str_eqb_true in Hx. subst y. destruct (str_eqb n x) eqn:Hn; [|done]. apply str_eqb_true in Hn. subst. by rewrite str_eqb_refl in Hy.
Qed.
Lemma put_names {A} n (v : A) l : map fst (put n v l) = map fst l.
Proof. induction l as [|[y u] l IH]; cbn; [done|]. destruct (str_eqb y n); cbn; [done|]. by rewrite IH. Qed.

Lemma local_vlook E V x : Forall2 rel_block E V -> relo (local E x) (vlook V x).
Proof.
  induction 1 as [|m b E V Hb _ IH]; cbn; [done|]. specialize (Hb x). destruct (m x), (get x b); cbn in Hb; try done.
Qed.
Lemma local_in E x v : local E x = Some v -> exists m, m ∈ E /\ m x = Some v.
Proof.
  induction E as [|m E IH]; cbn; [done|]. destruct (m x) eqn:Hm.
  - intros [= <-]. exists m. split; [by left|done].
  - intros H. destruct (IH H) as (m' & Hin & Hx). exists m'. split; [by right|done].
Qed.
Lemma local_fine H s E fr x v : rel_frame H s E fr -> local E x = Some v -> fine_local P (cls_of s) x.
Proof. intros (_ & Hf & _) (m & Hm & Hx)%local_in. by eapply Hf. Qed.

(** A member of an object of the heap: the layer that has it. *)
Lemma member_layer o ls n v : rel_obj o ls -> o_member o n = Some v ->
  exists d k f j, pos (o_class o) d j /\ is_class P d k /\ In f (c_fields k) /\ f_name f = n.
Proof.
  intros (Hs & _ & Hd) Hv. destruct (Hd n v Hv) as (d & k & f & Hi & Hk & Hf & Hn). destruct (isa_pos _ _ Hi) as [j Hj]. by exists d, k, f, j.
Qed.
Lemma member_value o ls d k f j v : rel_obj o ls -> o_member o (f_name f) = Some v -> pos (o_class o) d j -> is_class P d k -> In f (c_fields k) ->
  exists l w, ls !! j = Some l /\ get (f_name f) (l_fields l) = Some w /\ rel v w.
Proof.
  intros (Hs & Hl & _) Hv Hp Hk Hf. destruct (shape_at _ _ _ _ Hs Hp) as (k0 & k' & F & Hj & Hli & HF).
  pose proof (class_unique _ _ _ Hk (proj1 Hli)); subst k0.
  destruct (Hl j _ (f_name f) Hj) as (v' & w & Hv' & Hw & Hr). { cbn [l_fields]. rewrite HF. by apply in_map. }
  exists (Layer k' F), w. split_and!; [done|done|congruence].
Qed.
Lemma layers_at h a o j : h !! a = Some o -> layers h (a, j) = drop j o.
Proof. intros Ho. unfold layers. cbn [fst snd]. by rewrite Ho. Qed.
Lemma member_at h a o j n l w : h !! a = Some o -> o !! j = Some l -> get n (l_fields l) = Some w -> member h (a, j) n = Some w.
Proof.
  intros Ho Hl Hw. unfold member. rewrite (layers_at _ _ _ _ Ho). rewrite (drop_S _ _ _ Hl). done.
Qed.
Definition mode (only : bool) (need : nat) : Prop := (only = false /\ need = 0) \/ need = 1.
(** A member looked up from the layer of class [d]. *)
Lemma in_layer_member H h a o d j n v only need :
  rel_heap H h -> H !! a = Some o -> pos (o_class o) d j -> o_member o n = Some v -> field_of P d n -> fine_own P (Some d) n -> mode only need ->
  exists jj w, in_layer h (a, j) only need n = Some (FMember (a, jj) n) /\ member h (a, jj) n = Some w /\ rel v w /\
    (exists e k f, pos (o_class o) e jj /\ is_class P e k /\ In f (c_fields k) /\ f_name f = n).
Proof.
  intros Hh Ho Hp Hv (e & k & f & Hi & Hk & Hf & <-) Hown Hm. destruct (isa_pos _ _ Hi) as [i Hi'].
  destruct (Forall2_lookup_l _ _ _ _ _ Hh Ho) as (ls & Hls & Hr). pose proof Hr as (Hs & _ & _).
  pose proof (pos_trans _ _ _ _ _ Hp Hi') as Hpe.
  destruct (member_value o ls e k f (j + i) v Hr Hv Hpe Hk Hf) as (l & w & Hl & Hg & Hrel).
  exists (j + i), w. split_and!; [|by eapply member_at|done|by exists e, k, f].
  unfold in_layer. rewrite (layers_at _ _ _ _ Hls). pose proof (shape_drop _ _ _ _ Hs Hp) as Hsd.
  assert (obj_resolve (drop j ls) only need (f_name f) = Some (i, SymField)) as ->.
  { destruct Hm as [[-> ->]| ->].
    - eapply resolve_any; try done. destruct (decide (i = 0)) as [->|Hne]; [by left|]. right. intros Hpr.
      assert (e = d) as -> by (by eapply (Hown d e k f)).
      pose proof (pos_det _ _ _ _ _ (shape_height _ _ Hsd) Hi' (pos_here d)). lia.
    - eapply resolve_seen; try done. apply seen_one. }
  done.
Qed.
(** A member looked up in an object of any type. *)
Lemma in_object_member H h a o n v only need :
  rel_heap H h -> H !! a = Some o -> o_member o n = Some v -> (need = 0 -> fine_name P n) -> mode only need ->
  exists jj w, in_layer h (a, 0) only need n = Some (FMember (a, jj) n) /\ member h (a, jj) n = Some w /\ rel v w /\
    (exists e k f, pos (o_class o) e jj /\ is_class P e k /\ In f (c_fields k) /\ f_name f = n).
Proof.
  intros Hh Ho Hv Hfn Hm. destruct (Forall2_lookup_l _ _ _ _ _ Hh Ho) as (ls & Hls & Hr). pose proof Hr as (Hs & _ & Hdom).
  destruct (Hdom n v Hv) as (e & k & f & Hi & Hk & Hf & <-). destruct (isa_pos _ _ Hi) as [i Hi'].
  destruct (member_value o ls e k f i v Hr Hv Hi' Hk Hf) as (l & w & Hl & Hg & Hrel).
  exists i, w. split_and!; [|by eapply member_at|done|by exists e, k, f].
  unfold in_layer. rewrite (layers_at _ _ _ _ Hls), drop_0.
  assert (obj_resolve ls only need (f_name f) = Some (i, SymField)) as ->.
  { destruct Hm as [[-> ->]| ->].
    - eapply resolve_any; try done. right. apply (Hfn eq_refl k f); [apply Hk|done|done].
    - eapply resolve_seen; try done. apply seen_one. }
  done.
Qed.

(** ** Chains of names *)
Lemma next_object h fr y a only need n : content h fr y = Some (VObj a) -> next h fr y only need n = in_layer h (a, 0) only need n.
Proof.
  intros Hc. destruct y as [x|q x|[b j]|]; cbn [next]; try (rewrite Hc; done); [|done]. cbn [content] in Hc. destruct j; [by injection Hc as <-|]. by destruct (layers h (b, S j)).
Qed.
Lemma walk_follow H h fr y w w' r v only need : rel_heap H h -> follow H w r v -> content h fr y = Some w' -> rel w w' ->
  (need = 0 -> Forall (fine_name P) r) -> mode only need ->
  exists z v', walk h fr y only need r = Some z /\ content h fr z = Some v' /\ rel v v'.
Proof.
  intros Hh Hf. revert y w'. induction Hf as [v|a o n w r v Ho Hn Hf IH]; intros y w' Hc Hr Hfn Hm; [by exists y, w'|].
  destruct w'; cbn in Hr; try done. subst a0. cbn [walk]. rewrite (next_object _ _ _ _ _ _ _ Hc).
  destruct (in_object_member H h a o n w only need Hh Ho Hn) as (jj & w1 & Hl & Hme & Hrel & _); [|done|].
  { intros Hz. specialize (Hfn Hz). by apply Forall_cons in Hfn as [? _]. }
  rewrite Hl. apply (IH _ w1); try done. intros Hz. specialize (Hfn Hz). by apply Forall_cons in Hfn as [_ ?].
Qed.
Definition start_walk (h : list obj) (fr : frame) (only : bool) (need : nat) (p : list str) : option found :=
  match p with [] => None | n :: r => match in_scope h fr InFrame need n with Some x => walk h fr x only need r | None => None end end.
Lemma in_scope_this H h s E fr a d need : rel_frame H s E fr -> s = Some (a, d) ->
  exists j o, in_scope h fr InFrame need w_this = Some (FSelf (a, j)) /\ H !! a = Some o /\ pos (o_class o) d j /\ fr_home fr = Some (a, j).
Proof.
  intros HF ->. pose proof HF as (Hv & Hloc & Ht & (o & j & Hh & Ho & Hp)). exists j, o. split_and!; try done.
  cbn [in_scope]. unfold in_frame. pose proof (local_vlook _ _ w_this Hv) as Hl.
  destruct (local E w_this) eqn:Hlo. { apply (local_fine _ _ _ _ _ _ HF) in Hlo as [? _]. done. }
  destruct (vlook (fr_vars fr) w_this); [done|]. rewrite str_eqb_refl, Ht, Hh. done.
Qed.
(** What completing a name says. *)
Lemma seen_less need n v : seen (Nat.max need n) v = true -> seen need v = true.
Proof. unfold seen. rewrite !Nat.leb_le. lia. Qed.
Lemma bp_sound f c n need s : bp_resolve P1 f c n need = Some s ->
  match s with
  | YVal t => (exists e k f, isa P c e /\ is_class P e k /\ In f (c_fields k) /\ f_name f = n /\ f_ty f = t /\ seen need (f_vis f) = true) \/
              (n = w_base /\ exists k b, is_class P c k /\ c_base k = Some b /\ t = TObj b)
  | YMeth => exists e k q, isa P c e /\ is_class P e k /\ has_method k q /\ m_name q = n /\ seen need (m_vis q) = true
  end.
Proof.
  revert c. induction f as [|f IH]; intros c; cbn [bp_resolve]; [done|].
  destruct (class_of P1 c) as [k1|] eqn:Hc; [|done]. apply class_of_P1 in Hc as (k & Hk & ->).
  assert (forall k need x, own_field (complete k) need n = Some x -> In x (c_fields k) /\ f_name x = n /\ seen need (f_vis x) = true) as Hof.
  { intros k0 nd x [Hin Hx]%find_some. rewrite complete_fields in Hin. apply andb_true_iff in Hx as [Hx%str_eqb_true ?]. done. }
  assert (forall k need, own_name (complete k) need n = true -> exists q, has_method k q /\ m_name q = n /\ seen need (m_vis q) = true) as Hon.
  { intros k0 nd Hx. apply existsb_exists in Hx as (q & Hq & Hx). apply andb_true_iff in Hx as [Hx%str_eqb_true ?]. exists q. split; [|done]. by apply complete_methods. }
  destruct (own_field (complete k) need n) as [x|] eqn:Ho.
  { intros [= <-]. left. apply Hof in Ho as (H1 & H2 & H3). exists c, k, x. split_and!; try done. constructor. }
  destruct (if str_eqb n w_base then c_base (complete k) else None) as [b|] eqn:Hb.
  { intros [= <-]. right. destruct (str_eqb n w_base) eqn:Hn; [|done]. rewrite complete_base in Hb. split; [by apply str_eqb_true|]. by exists k, b. }
  rewrite complete_base.
  destruct (match c_base k with Some b => class_of P1 b | None => None end) as [b1|] eqn:Hpar.
  - destruct (c_base k) as [b|] eqn:Hcb; [|done]. apply class_of_P1 in Hpar as (kb & Hkb & ->).
    assert (isa P c b) as Hi by (eapply isa_up; [done|done|constructor]).
    destruct (own_field (complete kb) _ n) as [x|] eqn:Hob.
    { intros [= <-]. left. apply Hof in Hob as (H1 & H2 & H3). apply seen_less in H3. by exists b, kb, x. }
    destruct (own_name (complete k) need n || own_name (complete kb) (Nat.max need 2) n) eqn:Hor.
    + intros [= <-]. apply orb_true_iff in Hor as [Hx|Hx]; apply Hon in Hx as (q & Hq & Hn & Hs); [exists c, k, q|apply seen_less in Hs; exists b, kb, q]; split_and!; try done. constructor.
    + intros Hx%IH. destruct s; [|].
      * destruct Hx as [(e & ke & g & Hi2 & H)|(-> & _)]; [|rewrite complete_base, Hcb in Hb; done]. left. exists e, ke, g. split; [|done]. eapply isa_trans; done.
      * destruct Hx as (e & ke & g & Hi2 & H). exists e, ke, g. split; [|done]. eapply isa_trans; done.
  - rewrite orb_false_r. destruct (own_name (complete k) need n) eqn:Hor.
    + intros [= <-]. apply Hon in Hor as (q & Hq & Hn & Hs). exists c, k, q. split_and!; try done. constructor.
    + destruct (c_base k) as [b|] eqn:Hcb; [|done].
      assert (isa P c b) as Hi by (eapply isa_up; [done|done|constructor]).
      intros Hx%IH. destruct s; [|].
      * destruct Hx as [(e & ke & g & Hi2 & H)|(-> & _)]; [|rewrite complete_base, Hcb in Hb; done]. left. exists e, ke, g. split; [|done]. eapply isa_trans; done.
      * destruct Hx as (e & ke & g & Hi2 & H). exists e, ke, g. split; [|done]. eapply isa_trans; done.
Qed.
Lemma class_of_complete c k : is_class P c k -> class_of P1 c = Some (complete k).
Proof.
  intros [Hin Hn]. unfold class_of. cbn [P1 p_classes]. apply (find_key c_name).
  - rewrite map_map. rewrite (map_ext _ c_name complete_name). apply names_nodup.
  - by apply in_map.
  - rewrite complete_name. by apply str_eqb_true.
  - intros x Hx%str_eqb_true. rewrite complete_name. congruence.
Qed.
Lemma fresh_tall c M : fresh P c M -> exists n, height c n.
Proof. induction 1 as [c k Hk Hb|c k b M Hk Hb Hf [n IH]]; [exists 1; by eapply height_top|exists (S n); by eapply height_up]. Qed.
Lemma tall c k : is_class P c k -> exists n, height c n /\ n <= depth P1.
Proof.
  intros [Hk <-]. destruct Hsound as (_ & _ & _ & _ & Hf & _). destruct (Hf k Hk) as [M HM]. destruct (fresh_tall _ _ HM) as [n Hn]. exists n. split; [done|].
  apply height_bound in Hn. unfold depth. cbn [P1 p_classes]. rewrite map_length. lia.
Qed.
(** What a class has is found. *)
Definition has_name (k : cls) (need : nat) (x : str) : Prop :=
  (exists f, In f (c_fields k) /\ f_name f = x /\ seen need (f_vis f) = true) \/ (exists q, has_method k q /\ m_name q = x /\ seen need (m_vis q) = true).
Lemma bp_complete c e j : pos c e j -> forall n f k x need, height c n -> n <= f -> is_class P e k -> has_name k need x -> exists s, bp_resolve P1 f c x need = Some s.
Proof.
  induction 1 as [c|c kc b e j Hkc Hb Hp IH]; intros n f k x need Hn Hle Hk Hx.
  - assert (f <> 0) as Hf0 by (inversion Hn; lia). destruct f as [|f]; [done|]. cbn [bp_resolve]. rewrite (class_of_complete _ _ Hk).
    destruct (own_field (complete k) need x) eqn:Ho; [by eexists|]. destruct (if str_eqb x w_base then _ else _); [by eexists|].
    destruct (match match c_base (complete k) with Some b => class_of P1 b | None => None end with Some b => _ | None => None end); [by eexists|].
    assert (own_name (complete k) need x = true) as ->; [|by eexists].
    destruct Hx as [(g & Hg & Hgn & Hs)|(q & Hq & Hqn & Hs)].
    + exfalso. unfold own_field in Ho. apply (find_none _ _) with (x := g) in Ho; [|by rewrite complete_fields].
      rewrite Hs, andb_true_r in Ho. apply str_eqb_false in Ho. done.
    + apply existsb_exists. exists q. split; [by apply complete_methods|]. rewrite Hs, andb_true_r. by apply str_eqb_true.
  - inversion Hn as [c' k' Hk' Hb'|c' k' b' n' Hk' Hb' Hn']; subst; pose proof (class_unique _ _ _ Hkc Hk'); subst k'; [congruence|].
    assert (b' = b) as -> by congruence. destruct f as [|f]; [lia|]. cbn [bp_resolve]. rewrite (class_of_complete _ _ Hkc).
    destruct (own_field (complete kc) need x); [by eexists|]. destruct (if str_eqb x w_base then _ else _); [by eexists|].
    destruct (match match c_base (complete kc) with Some b => class_of P1 b | None => None end with Some b => _ | None => None end); [by eexists|].
    destruct (own_name _ _ _ || _); [by eexists|]. rewrite complete_base, Hb. eapply (IH n' f k); try done. lia.
Qed.
Lemma bp_found c e k x need : isa P c e -> is_class P e k -> has_name k need x -> exists s, bp_resolve P1 (depth P1) c x need = Some s.
Proof.
  intros Hi Hk Hx. destruct (isa_pos _ _ Hi) as [j Hj].
  assert (exists kc, is_class P c kc) as [kc Hkc] by (inversion Hi; subst; eauto). destruct (tall _ _ Hkc) as (n & Hn & Hle). by eapply bp_complete.
Qed.
Lemma member_found c x : member_of P c x -> exists s, bp_resolve P1 (depth P1) c x 1 = Some s.
Proof.
  intros [(e & k & f & Hi & Hk & Hf & Hn)|(e & k & q & Hi & Hk & Hq & Hn)]; eapply bp_found; try done; [left|right]; eexists; (split; [done|]); split; [done|apply seen_one|done|apply seen_one].
Qed.
Lemma known_not_lost D c p q : known_chain P c p -> rest P1 D c 1 p <> Ok (Lost q).
Proof.
  induction 1 as [c n Hm|c n e k f d r Hi Hk Hf Hn Ht Hr IH]; cbn [rest].
  - destruct (member_found _ _ Hm) as [s ->]. by destruct s.
  - destruct (member_found c n) as [s Hs]; [left; by exists e, k, f|]. rewrite Hs. apply bp_sound in Hs. destruct s as [t|].
    + destruct Hs as [(e2 & k2 & f2 & Hi2 & Hk2 & Hf2 & Hn2 & <- & _)|(-> & _)].
      * assert (e = e2) as <- by (eapply (field_once c e k f e2 k2 f2); try done; congruence).
        pose proof (class_unique _ _ _ Hk Hk2); subst k2. pose proof (sound_of _ _ Hk) as (Hd & _).
        assert (f2 = f) as ->.
        { pose proof (own_field_in k n f Hf Hn Hd 1 (seen_one _)) as E1. pose proof (own_field_in k n f2 Hf2 Hn2 Hd 1 (seen_one _)) as E2. congruence. }
        rewrite Ht. destruct r as [|n2 r]; [done|]. destruct (field_name_fine e k f Hk Hf) as [H1 H2]. rewrite Hn in H1, H2.
        apply str_eqb_false in H1, H2. rewrite H1, H2. by destruct (bool_decide _).
      * by destruct (field_name_fine e k f Hk Hf) as [_ ?].
    + by destruct r.
Qed.
Lemma rest_sound D c need n r s : rest P1 D c need (n :: r) = Ok (Found s) ->
  (member_of P c n \/ n = w_base) /\ (r = [] -> match s with RVal _ => True | RMeth _ m => m = n /\ knows P c n end).
Proof.
  cbn [rest]. destruct (bp_resolve P1 (depth P1) c n need) as [y|] eqn:Hb; [|done]. apply bp_sound in Hb. destruct y as [t|].
  - intros H. split.
    + destruct Hb as [(e & k & f & ? & ? & ? & ? & _)|[? _]]; [left; left; by exists e, k, f|by right].
    + intros ->. by injection H as <-.
  - assert (knows P c n) as Hk. { destruct Hb as (e & k & q & ? & ? & ? & ? & _). by exists e, k, q. }
    intros H. split; [by left; right|]. intros ->. by injection H as <-.
Qed.
(** A chain the fragment allows is never lost behind its first name. *)
Lemma lost_whole d x r q : fine_known P (Some d) (x :: r) -> rest P1 (Some d) d 1 (x :: r) = Ok (Lost q) -> q = x :: r.
Proof.
  intros Hkn Hr. pose proof Hr as Hr2. cbn [rest] in Hr. destruct (bp_resolve P1 (depth P1) d x 1) as [y|] eqn:Hb; [|by injection Hr as <-].
  exfalso. destruct r as [|n r]; [by destruct y|]. apply bp_sound in Hb. destruct (Hkn d x n r eq_refl eq_refl) as [H1 H2]. destruct y as [t|]; [|done].
  destruct Hb as [(e & k & f & Hi & Hk & Hf & Hn & _)|(-> & k & b & Hk & Hb & ->)].
  - eapply known_not_lost; [apply H1|done]. left. by exists e, k, f.
  - destruct (H2 eq_refl k b Hk Hb) as (-> & c & kc & m & Hi & Hkc & Hm & Hmn & Hv). rewrite str_eqb_refl in Hr. cbn [rest] in Hr.
    destruct (bp_found b c kc n 2 Hi Hkc) as [s Hs]; [right; exists m; split; [done|]; split; [done|]; by destruct (m_vis m)|].
    rewrite Hs in Hr. by destruct s.
Qed.
Lemma name_shape D G x r p' s : fine_known P D (x :: r) -> name_of P1 D G (x :: r) = Ok (p', s) ->
  p' = x :: r \/ (p' = w_this :: x :: r /\ exists d, D = Some d /\ (member_of P d x \/ x = w_base)).
Proof.
  intros Hkn. unfold name_of. destruct D as [d|].
  - destruct (rest P1 (Some d) d 1 (x :: r)) as [[y|q]| | |] eqn:Hr; cbn [rbind]; try done.
    + intros [= <- <-]. right. split; [done|]. exists d. split; [done|]. by apply rest_sound in Hr as [? _].
    + apply lost_whole in Hr as ->; [|done]. destruct (plain P1 (Some d) G (x :: r)); cbn; try done. intros [= <- _]. by left.
  - cbn [rbind]. destruct (plain P1 None G (x :: r)); cbn; try done. intros [= <- _]. by left.
Qed.
Lemma this_no_member d : ~ member_of P d w_this.
Proof.
  intros [(c & k & f & _ & Hk & Hf & Hn)|(c & k & q & _ & Hk & Hq & Hn)].
  - by destruct (field_name_fine c k f Hk Hf) as [? _].
  - destruct Hq as [Hq|[_ ->]]; [|done]. pose proof (sound_of _ _ Hk) as (_ & _ & _ & Hx & _). by destruct (Hx q Hq) as (? & _).
Qed.
Lemma base_no_member d : ~ member_of P d w_base.
Proof.
  intros [(c & k & f & _ & Hk & Hf & Hn)|(c & k & q & _ & Hk & Hq & Hn)].
  - by destruct (field_name_fine c k f Hk Hf) as [_ ?].
  - destruct Hq as [Hq|[_ ->]]; [|done]. pose proof (sound_of _ _ Hk) as (_ & _ & _ & Hx & _). by destruct (Hx q Hq) as (_ & ?).
Qed.
(** 'this.n' names something the class has. *)
Lemma this_path D G d n r p' s : D = Some d -> fine_known P D (w_this :: n :: r) -> slook G w_this = None -> name_of P1 D G (w_this :: n :: r) = Ok (p', s) ->
  p' = w_this :: n :: r /\ (member_of P d n \/ n = w_base).
Proof.
  intros -> Hkn HG H. pose proof (name_shape _ _ _ _ _ _ Hkn H) as [->|(_ & d' & [= <-] & [Hm|Hm])]; [|by apply this_no_member in Hm|done].
  split; [done|]. unfold name_of in H. destruct (rest P1 (Some d) d 1 (w_this :: n :: r)) as [[y|q]| | |] eqn:Hr; cbn [rbind] in H; try done.
  { apply rest_sound in Hr as [[Hm|Hm] _]; [by apply this_no_member in Hm|done]. }
  apply lost_whole in Hr as ->; [|done]. unfold plain, head in H. rewrite HG in H. rewrite str_eqb_refl in H.
  replace (str_eqb w_this w_base) with false in H by done.
  destruct (rest P1 (Some d) d 1 (n :: r)) as [[y|q]| | |] eqn:Hr2; cbn [rbind] in H; try done. by apply rest_sound in Hr2 as [? _].
Qed.

Lemma object_field o ls d n v j : rel_obj o ls -> o_member o n = Some v -> pos (o_class o) d j -> member_of P d n \/ n = w_base -> field_of P d n.
Proof.
  intros Hr Hv Hp Hm. destruct (member_layer o ls n v Hr Hv) as (e & k & f & i & Hpe & Hk & Hf & <-).
  destruct Hm as [[Hm|(c & k2 & q & Hi & Hk2 & Hq & Hn)]|Hb]; [done| |].
  - exfalso. refine (field_not_method (o_class o) e k f c k2 q _ Hk Hf _ Hk2 Hq Hn); [by eapply pos_isa|]. by eapply isa_trans; [apply (pos_isa _ _ _ Hp)|].
  - by destruct (field_name_fine e k f Hk Hf) as [_ ?].
Qed.
(** The next name after a value, and after 'this'. *)
Definition hit (h : list obj) (o : bobj) (a : nat) (n : str) (v : bval) (z : option found) : Prop :=
  exists jj w, z = Some (FMember (a, jj) n) /\ member h (a, jj) n = Some w /\ rel v w /\
    (exists e k f, pos (o_class o) e jj /\ is_class P e k /\ In f (c_fields k) /\ f_name f = n).
Lemma next_value H h fr y w' a o n v only need :
  rel_heap H h -> content h fr y = Some w' -> rel (BObj a) w' -> H !! a = Some o -> o_member o n = Some v -> (need = 0 -> fine_name P n) -> mode only need ->
  hit h o a n v (next h fr y only need n).
Proof.
  intros Hh Hc Hr Ho Hv Hf Hm. destruct w'; cbn in Hr; try done. subst a0. rewrite (next_object _ _ _ _ _ _ _ Hc). by eapply in_object_member.
Qed.
Lemma next_self H h fr a o d j n v only need :
  rel_heap H h -> H !! a = Some o -> pos (o_class o) d j -> o_member o n = Some v -> (member_of P d n \/ n = w_base) -> fine_own P (Some d) n -> mode only need ->
  hit h o a n v (next h fr (FSelf (a, j)) only need n).
Proof.
  intros Hh Ho Hp Hv Hmem Hf Hm. cbn [next]. destruct (Forall2_lookup_l _ _ _ _ _ Hh Ho) as (ls & Hls & Hr).
  eapply in_layer_member; try done. by eapply object_field.
Qed.

(** The first name of a completed chain: a value, or 'this'. *)
Definition completed (s : self) (q p : list str) : Prop :=
  q = p \/ (q = w_this :: p /\ exists d, cls_of s = Some d /\ forall x r, p = x :: r -> member_of P d x \/ x = w_base).
Lemma head_found H h s E fr x r q w only need :
  rel_heap H h -> rel_frame H s E fr -> first P s E H x w -> completed s q (x :: r) -> mode only need ->
  (x <> w_this -> fine_own P (cls_of s) x) ->
  exists y, start_walk h fr only need q = walk h fr y only need r /\
    (((exists w', content h fr y = Some w' /\ rel w w') /\
      ((local E x = Some w /\ y = FVar x) \/ (exists a d o jj, local E x = None /\ s = Some (a, d) /\ H !! a = Some o /\ hit h o a x w (Some (FMember (a, jj) x)) /\ y = FMember (a, jj) x)) /\ x <> w_this) \/
     (x = w_this /\ q = x :: r /\ exists a d o j, y = FSelf (a, j) /\ w = BObj a /\ s = Some (a, d) /\ H !! a = Some o /\ pos (o_class o) d j)).
Proof.
  intros Hh HF Hfi Hq Hm Hown. pose proof HF as (Hvars & Hloc & Hth & Hself).
  pose proof (local_vlook _ _ x Hvars) as Hl. destruct Hfi as [x v Hlo|x a d o v Hlo Hs Hfo Ho Hv|a d Hlo Hs].
  - pose proof (local_fine _ _ _ _ _ _ HF Hlo) as (Hn1 & Hn2 & Hn3).
    destruct Hq as [->|(-> & d & Hd & Hx)]; [|destruct (Hx x r eq_refl) as [Hx'|Hx']; [by destruct (Hn3 d Hd)|done]].
    rewrite Hlo in Hl. destruct (vlook (fr_vars fr) x) as [v'|] eqn:Hvl; [|done]. exists (FVar x).
    split; [cbn [start_walk in_scope]; unfold in_frame; by rewrite Hvl|]. left. split_and!; [|by left|done]. exists v'. done.
  - rewrite Hlo in Hl. destruct (vlook (fr_vars fr) x) as [v'|] eqn:Hvl; [done|]. rewrite Hs in Hself. destruct Hself as (o' & j & Hhome & Ho' & Hp).
    assert (o' = o) as -> by congruence.
    assert (x <> w_this) as Hnt. { destruct Hfo as (c & k & f & _ & Hk & Hf & <-). by destruct (field_name_fine c k f Hk Hf). }
    assert (fine_own P (Some d) x) as Hfo2. { specialize (Hown Hnt). by rewrite Hs in Hown. }
    assert (exists y, in_layer h (a, j) false need x = Some y /\ in_layer h (a, j) only need x = Some y /\ exists jj, y = FMember (a, jj) x /\ hit h o a x v (Some y)) as (y & Hy1 & Hy2 & jj & -> & Hhit).
    { destruct (in_layer_member H h a o d j x v only need Hh Ho Hp Hv Hfo Hfo2 Hm) as (jj & w & Hy & Hme & Hr & Hi).
      assert (mode false need) as Hm2. { destruct Hm as [[_ ?]|?]; [by left|by right]. }
      destruct (in_layer_member H h a o d j x v false need Hh Ho Hp Hv Hfo Hfo2 Hm2) as (jj2 & w2 & Hy2 & _ & _ & Hi2).
      assert (jj2 = jj) as ->.
      { destruct Hi as (e & k & f & P1' & K1 & F1 & N1). destruct Hi2 as (e2 & k2 & f2 & P2 & K2 & F2 & N2).
        assert (e = e2) as -> by (eapply (field_once (o_class o) e k f e2 k2 f2); try done; [by eapply pos_isa|by eapply pos_isa|congruence]).
        destruct (Forall2_lookup_l _ _ _ _ _ Hh Ho) as (ls & Hls & (Hsh & _)). by eapply pos_det; [by eapply shape_height|..]. }
      exists (FMember (a, jj) x). split_and!; [done|done|]. exists jj. split; [done|]. by exists jj, w. }
    exists (FMember (a, jj) x). split.
    + destruct Hq as [->|(-> & _)].
      * cbn [start_walk in_scope]. unfold in_frame. rewrite Hvl. apply str_eqb_false in Hnt. by rewrite Hnt, Hhome, Hy1.
      * destruct (in_scope_this H h s E fr a d need HF Hs) as (j' & o' & Ht & _ & _ & Hh2). assert (j' = j) as -> by congruence.
        cbn [start_walk]. rewrite Ht. cbn [walk next]. by rewrite Hy2.
    + left. destruct Hhit as (jj' & w & [= <-] & Hme & Hr & Hi). split_and!; [by exists w| |done]. right. exists a, d, o, jj. split_and!; try done. by exists jj, w.
  - destruct (in_scope_this H h s E fr a d need HF Hs) as (j & o & Ht & Ho & Hp & _). exists (FSelf (a, j)).
    destruct Hq as [->|(-> & d' & _ & Hx)]; [|destruct (Hx w_this r eq_refl) as [Hx'|Hx']; [by apply this_no_member in Hx'|done]].
    split; [cbn [start_walk]; by rewrite Ht|]. right. split; [done|]. split; [done|]. by exists a, d, o, j.
Qed.

(** A whole chain. [this_ok] is what the generator checked of a chain that begins with 'this'. *)
Definition this_ok (s : self) (p : list str) : Prop :=
  match p with x :: n :: _ => x = w_this -> forall d, cls_of s = Some d -> member_of P d n \/ n = w_base | _ => True end.
Lemma path_value H h s E fr x r q w v only need :
  rel_heap H h -> rel_frame H s E fr -> first P s E H x w -> follow H w r v -> completed s q (x :: r) -> mode only need ->
  fine_path P (cls_of s) (x :: r) -> this_ok s (x :: r) ->
  exists z v', start_walk h fr only need q = Some z /\ content h fr z = Some v' /\ rel v v'.
Proof.
  intros Hh HF Hfi Hfo Hq Hm Hfp Hto. unfold fine_path in Hfp.
  destruct (head_found H h s E fr x r q w only need Hh HF Hfi Hq Hm) as (y & Hy & [((w' & Hc & Hr) & _ & Hne)|(-> & _ & a & d & o & j & -> & -> & Hs & Ho & Hp)]).
  { intros Hne. rewrite bool_decide_eq_false_2 in Hfp by done. apply Hfp. }
  - rewrite bool_decide_eq_false_2 in Hfp by done. rewrite Hy. eapply walk_follow; try done. intros _. apply Hfp.
  - rewrite bool_decide_eq_true_2 in Hfp by done. rewrite Hy. subst s. cbn [cls_of option_map snd] in *.
    inversion Hfo as [|a' o' n w1 r' v' Ho' Hn Hf1]; subst.
    + cbn [walk]. eexists _, (VObj a). split; [done|]. split; [|done].
      destruct j as [|j]; [done|]. exfalso. destruct (pos_below _ _ _ Hp) as (c & k & [Hk _] & Hb). by apply (Hfp d k).
    + assert (o' = o) as -> by congruence. destruct Hfp as [Hfp1 Hfp2].
      destruct (next_self H h fr a o d j n w1 only need Hh Ho Hp Hn (Hto eq_refl d eq_refl) Hfp1 Hm) as (jj & w' & Hnx & Hme & Hr & _).
      cbn [walk]. rewrite Hnx. eapply walk_follow; try done.
Qed.

(** ** Calls *)
Lemma split_snoc l m : split_last (l ++ [m]) = Some (l, m).
Proof. unfold split_last. rewrite rev_app_distr. cbn. by rewrite rev_involutive. Qed.
Lemma find_method_path h fr x r m i : find_method L h fr InFrame ((x :: r) ++ [m]) i =
  match start_walk h fr true 1 (x :: r) with Some y => method_at L h fr y m i | None => None end.
Proof. unfold find_method. rewrite split_snoc. cbn [start_walk]. by destruct (in_scope h fr InFrame 1 x). Qed.
Lemma method_at_object h fr y b m i : content h fr y = Some (VObj b) -> method_at L h fr y m i = method_in L h (b, 0) m i.
Proof.
  intros Hc. destruct y as [x|q x|[a j]|]; cbn [method_at]; try (rewrite Hc; done); [|done]. cbn [content] in Hc. destruct j; [by injection Hc as <-|]. by destruct (layers h (a, S j)).
Qed.
Lemma picks_has c m i d q : picks P c m i d q -> exists k, is_class P d k /\ has_method k q.
Proof. induction 1; eauto. Qed.
Lemma picks_fine c m i d q : picks P c m i d q -> fine_method P (Some d) q.
Proof.
  intros (k & Hk & [Hq|[_ ->]])%picks_has.
  - destruct Hfine as (_ & Hx & _). destruct Hk as [Hin <-]. by apply Hx.
  - split; constructor.
Qed.
Lemma method_in_picked H h a o c j m i e q : rel_heap H h -> H !! a = Some o -> pos (o_class o) c j -> picks P c m i e q ->
  exists pt q', method_in L h (a, j) m i = Some (pt, q') /\ elab_method P1 (Some e) q = Ok q' /\ rel_self H (Some (a, e)) pt.
Proof.
  intros Hh Ho Hp Hpi. destruct (Forall2_lookup_l _ _ _ _ _ Hh Ho) as (ls & Hls & (Hs & _)).
  destruct (method_picked c m i e q (drop j ls) false Hpi (shape_drop _ _ _ _ Hs Hp)) as (jj & q' & Hm & Hpj & He).
  exists (Some (a, j + jj)), q'. unfold method_in. rewrite (layers_at _ _ _ _ Hls), Hm. split_and!; [done|done|].
  exists o, (j + jj). split_and!; try done. by eapply pos_trans.
Qed.
Lemma completed_prefix D s G x r m p' sr : D = cls_of s -> fine_known P D ((x :: r) ++ [m]) -> name_of P1 D G ((x :: r) ++ [m]) = Ok (p', sr) -> exists q, p' = q ++ [m] /\ completed s q (x :: r) /\ q <> [].
Proof.
  intros -> Hkn Hn. apply name_shape in Hn as [->|(-> & d & Hd & Hx)]; [| |done].
  - exists (x :: r). split; [done|]. split; [by left|done].
  - exists (w_this :: x :: r). split; [done|]. split; [|done]. right. split; [done|]. exists d. split; [done|]. by intros ? ? [= <- <-].
Qed.
Lemma this_checked s G x r p' sr : fine_known P (cls_of s) (x :: r) -> slook G w_this = None -> name_of P1 (cls_of s) G (x :: r) = Ok (p', sr) -> this_ok s (x :: r).
Proof. intros Hkn HG Hn. destruct r as [|n r]; [done|]. cbn. intros -> d Hd. by eapply this_path in Hn as [_ ?]. Qed.
Lemma this_ok_prefix s x r m : this_ok s ((x :: r) ++ [m]) -> this_ok s (x :: r).
Proof. by destruct r. Qed.

Lemma target_found H h s E fr G p p' sr i tq q :
  rel_heap H h -> rel_frame H s E fr -> target_of P s E H p i tq q ->
  name_of P1 (cls_of s) G p = Ok (p', sr) -> (forall t, sr <> RVal t) -> slook G w_this = None -> fine_target P (cls_of s) p i -> fine_known P (cls_of s) p ->
  exists pt q', find_method L h fr InFrame p' i = Some (pt, q') /\ elab_method P1 (cls_of tq) q = Ok q' /\ rel_self H tq pt /\ fine_method P (cls_of tq) q.
Proof.
  intros Hh HF Ht Hn Hc HG Hft Hkn. pose proof HF as (Hvars & Hloc & Hth & Hself).
  destruct Ht as [a d m i o c q Hs Hk Ho Hpi|a d m i o c q Hs Ho Hpi|a d k b m i c q Hs Hk Hb Hpi|m i q Hno Hin Hfit|x w r a o m i c q Hx Hfi Hfo Ho Hpi].
  - (* own *)
    subst s. destruct Hself as (o' & j & Hhome & Ho' & Hp). assert (o' = o) as -> by congruence.
    destruct (Forall2_lookup_l _ _ _ _ _ Hh Ho) as (ls & Hls & (Hsh & _)).
    assert (picks P d m i c q) as Hpd. { eapply picks_below; try done; [by eapply shape_height|]. intros c1 k1 r1 Hi1 Hne1 Hk1 Hq1. by eapply (Hft d). }
    destruct (method_in_picked H h a o d j m i c q Hh Ho Hp Hpd) as (pt & q' & Hme & He & Hrs).
    exists pt, q'. split_and!; [|done|done|by eapply picks_fine].
    apply name_shape in Hn as [->|(-> & _)]; [| |done].
    + unfold find_method. cbn [split_last rev app]. change (split_last [m]) with (Some (@nil str, m)). cbn iota beta. by rewrite Hhome.
    + destruct (in_scope_this H h _ E fr a d 1 HF eq_refl) as (j' & o' & Hi & _ & _ & Hh2). assert (j' = j) as -> by congruence.
      change [w_this; m] with ((w_this :: []) ++ [m]). rewrite find_method_path. cbn [start_walk]. rewrite Hi. done.
  - (* this.m *)
    subst s. destruct Hself as (o' & j & Hhome & Ho' & Hp). assert (o' = o) as -> by congruence.
    destruct (Forall2_lookup_l _ _ _ _ _ Hh Ho) as (ls & Hls & (Hsh & _)). cbn [fine_target] in Hft. rewrite bool_decide_eq_true_2 in Hft by done.
    assert (picks P d m i c q) as Hpd. { eapply picks_below; try done; [by eapply shape_height|]. intros c1 k1 r1 Hi1 Hne1 Hk1 Hq1. by eapply (Hft d). }
    destruct (method_in_picked H h a o d j m i c q Hh Ho Hp Hpd) as (pt & q' & Hme & He & Hrs).
    exists pt, q'. split_and!; [|done|done|by eapply picks_fine].
    apply (this_path _ _ d) in Hn as [-> _]; try done.
    destruct (in_scope_this H h _ E fr a d 1 HF eq_refl) as (j' & o' & Hi & _ & _ & Hh2). assert (j' = j) as -> by congruence.
    change [w_this; m] with ((w_this :: []) ++ [m]). rewrite find_method_path. cbn [start_walk]. rewrite Hi. done.
  - (* base.m *)
    subst s. destruct Hself as (o & j & Hhome & Ho & Hp).
    destruct (Forall2_lookup_l _ _ _ _ _ Hh Ho) as (ls & Hls & (Hsh & _)).
    assert (pos (o_class o) b (j + 1)) as Hpb. { eapply pos_trans; [done|]. eapply pos_up; [done|done|constructor]. }
    destruct (method_in_picked H h a o b (j + 1) m i c q Hh Ho Hpb Hpi) as (pt & q' & Hme & He & Hrs).
    exists pt, q'. split_and!; [|done|done|by eapply picks_fine].
    assert (forall only, in_layer h (a, j) only 1 w_base = Some (FSelf (a, j + 1))) as Hil.
    { intros only. unfold in_layer. rewrite (layers_at _ _ _ _ Hls). rewrite (resolve_base d _ k b only 1 (shape_drop _ _ _ _ Hsh Hp) Hk Hb). done. }
    apply name_shape in Hn as [->|(-> & _)]; [| |done].
    + change [w_base; m] with ((w_base :: []) ++ [m]). rewrite find_method_path. cbn [start_walk in_scope]. unfold in_frame.
      pose proof (local_vlook _ _ w_base Hvars) as Hl. destruct (local E w_base) eqn:Hlo. { apply (local_fine _ _ _ _ _ _ HF) in Hlo as (_ & ? & _). done. }
      destruct (vlook (fr_vars fr) w_base); [done|]. replace (str_eqb w_base w_this) with false by done. rewrite Hhome, Hil. done.
    + change [w_this; w_base; m] with ((w_this :: [w_base]) ++ [m]). rewrite find_method_path.
      destruct (in_scope_this H h _ E fr a d 1 HF eq_refl) as (j' & o' & Hi & _ & _ & Hh2). assert (j' = j) as -> by congruence.
      cbn [start_walk]. rewrite Hi. cbn [walk next]. rewrite Hil. done.
  - (* a function *)
    destruct (function_found m i q Hin Hfit) as (q' & Hfu & He). exists None, q'.
    assert (fine_method P None q) as Hfm. { destruct Hfine as (_ & _ & Hx). rewrite Forall_forall in Hx. apply Hx. by apply elem_of_list_In. }
    split_and!; [|done|done|done].
    assert (p' = [m]) as ->.
    { unfold name_of in Hn. destruct (cls_of s) as [d|] eqn:Hd.
      - destruct (rest P1 (Some d) d 1 [m]) as [[y|qq]| | |] eqn:Hr; cbn [rbind] in Hn; try done.
        + exfalso. injection Hn as <- <-. apply rest_sound in Hr as [_ Hr]. specialize (Hr eq_refl). destruct y as [t'|c' m']; [by eapply Hc|].
          destruct Hr as [-> Hr]. destruct s as [[a d']|]; [|done]. injection Hd as ->. by apply (Hno a d).
        + apply lost_whole in Hr as ->; [|done]. destruct (plain P1 (Some d) G [m]); cbn in Hn; try done. by injection Hn as <- _.
      - cbn [rbind] in Hn. destruct (plain P1 None G [m]); cbn in Hn; try done. by injection Hn as <- _. }
    unfold find_method. change (split_last [m]) with (Some (@nil str, m)). cbn iota beta. destruct s as [[a d]|].
    + destruct Hself as (o & j & Hhome & Ho & Hp). destruct (Forall2_lookup_l _ _ _ _ _ Hh Ho) as (ls & Hls & (Hsh & _)).
      rewrite Hhome. unfold method_in. rewrite (layers_at _ _ _ _ Hls).
      rewrite (method_global d m i _ q'); [done| |by eapply shape_drop|done].
      intros e ke r Hi Hke Hr Hnm. apply (Hno a d eq_refl). by exists e, ke, r.
    + cbn in Hself. rewrite Hself. by rewrite Hfu.
  - (* on an object *)
    change (x :: r ++ [m]) with ((x :: r) ++ [m]) in *.
    destruct (completed_prefix _ s G x r m p' sr eq_refl Hkn Hn) as (qq & -> & Hcp & Hne).
    pose proof (this_ok_prefix _ _ _ _ (this_checked _ _ _ _ _ _ Hkn HG Hn)) as Hto.
    assert (x <> w_base) as Hxb.
    { intros ->. inversion Hfi as [x' v' Hlo|x' a' d' o' v' Hlo Hs Hfo' Ho' Hv|a' d' Hlo Hs]; subst.
      - by apply (local_fine _ _ _ _ _ _ HF) in Hlo as (_ & ? & _).
      - destruct Hfo' as (c' & k & f & _ & Hk & Hf & Hnm). by destruct (field_name_fine c' k f Hk Hf). }
    assert (fine_path P (cls_of s) (x :: r)) as Hfp.
    { destruct r as [|n r].
      - cbn [fine_target app] in Hft. rewrite bool_decide_eq_false_2 in Hft by (by destruct Hx). rewrite bool_decide_eq_false_2 in Hft by done. done.
      - assert (fine_target P (cls_of s) ((x :: n :: r) ++ [m]) i = fine_path P (cls_of s) (removelast ((x :: n :: r) ++ [m]))) as Heq by (by destruct r).
        rewrite Heq in Hft. by rewrite removelast_last in Hft. }
    destruct (path_value H h s E fr x r qq w (BObj a) true 1 Hh HF Hfi Hfo Hcp (or_intror eq_refl) Hfp Hto) as (z & v' & Hz & Hcz & Hrz).
    destruct v'; cbn in Hrz; try done. subst a0.
    destruct (method_in_picked H h a o (o_class o) 0 m i c q Hh Ho (pos_here _) Hpi) as (pt & q' & Hme & He & Hrs).
    exists pt, q'. split_and!; [|done|done|by eapply picks_fine].
    destruct qq as [|y qq]; [done|]. rewrite find_method_path, Hz. by rewrite (method_at_object _ _ _ _ _ _ Hcz).
Qed.

(** ** Places *)
Lemma walk_snoc h fr y r n only need : walk h fr y only need (r ++ [n]) = match walk h fr y only need r with Some z => next h fr z only need n | None => None end.
Proof.
  revert y. induction r as [|x r IH]; intros y; cbn [app walk]; [by destruct (next h fr y only need n)|].
  destruct (next h fr y only need x); [apply IH|done].
Qed.
Lemma find_value_walk h fr p : find_value h fr InFrame p = start_walk h fr false 0 p.
Proof. by destruct p. Qed.
Definition rel_place (H : bheap) (pl : place) (z : found) : Prop :=
  match pl with
  | LocalVar x => z = FVar x
  | Member a n => exists o jj e k f, z = FMember (a, jj) n /\ H !! a = Some o /\ pos (o_class o) e jj /\ is_class P e k /\ In f (c_fields k) /\ f_name f = n
  end.
Lemma place_found H h s E fr G p p' sr pl :
  rel_heap H h -> rel_frame H s E fr -> located P s E H p pl ->
  name_of P1 (cls_of s) G p = Ok (p', sr) -> slook G w_this = None -> fine_path P (cls_of s) p -> fine_known P (cls_of s) p ->
  exists z, find_value h fr InFrame p' = Some z /\ rel_place H pl z.
Proof.
  intros Hh HF Hlo Hn HG Hfp Hkn. rewrite find_value_walk.
  assert (forall x r, fine_known P (cls_of s) (x :: r) -> name_of P1 (cls_of s) G (x :: r) = Ok (p', sr) -> completed s p' (x :: r)) as Hcomp.
  { intros x r Hkn' [->|(-> & d & Hd & Hx)]%name_shape; [by left| |done]. right. split; [done|]. exists d. split; [done|]. by intros ? ? [= <- <-]. }
  assert (forall x, fine_path P (cls_of s) [x] -> x <> w_this -> fine_own P (cls_of s) x) as Hfo.
  { intros x H1 H2. cbn in H1. rewrite bool_decide_eq_false_2 in H1 by done. apply H1. }
  destruct Hlo as [x v Hl|x a d o v Hl Hs Hfi Ho Hv|x w r n a o v Hfi Hfol Ho Hv].
  - destruct (head_found H h s E fr x [] p' v false 0 Hh HF (first_local _ _ _ _ _ _ Hl) (Hcomp _ _ Hkn Hn) ltac:(by left)) as (y & Hy & Hc).
    { by apply Hfo. }
    exists y. rewrite Hy. split; [done|]. destruct Hc as [(_ & [[_ ->]|(a & d & o & jj & Hno & _)] & _)|(-> & _)]; [done|congruence|].
    by apply (local_fine _ _ _ _ _ _ HF) in Hl as [? _].
  - destruct (head_found H h s E fr x [] p' v false 0 Hh HF (first_member _ _ _ _ _ _ _ _ _ Hl Hs Hfi Ho Hv) (Hcomp _ _ Hkn Hn) ltac:(by left)) as (y & Hy & Hc).
    { by apply Hfo. }
    exists y. rewrite Hy. split; [done|]. destruct Hc as [(_ & [[Hno _]|(a' & d' & o' & jj & Hno & Hs' & Ho' & Hhit & ->)] & _)|(-> & _)]; [congruence| |].
    + assert (a' = a) as -> by congruence. assert (o' = o) as -> by congruence. destruct Hhit as (jj' & w' & [= <-] & _ & _ & e & k & f & Hr). by exists o, jj, e, k, f.
    + destruct Hfi as (c' & k & f & _ & Hk & Hf & Hnm). by destruct (field_name_fine c' k f Hk Hf).
  - pose proof (this_checked _ _ _ _ _ _ Hkn HG Hn) as Hto. unfold fine_path in Hfp.
    destruct (head_found H h s E fr x (r ++ [n]) p' w false 0 Hh HF Hfi (Hcomp _ _ Hkn Hn) ltac:(by left)) as (y & Hy & [((w' & Hc & Hr) & _ & Hne)|(-> & _ & b & d & o' & j & -> & -> & Hs & Ho' & Hp)]).
    { intros Hne. rewrite bool_decide_eq_false_2 in Hfp by done. apply Hfp. }
    + rewrite bool_decide_eq_false_2 in Hfp by done. destruct Hfp as [_ Hfp]. apply Forall_app in Hfp as [Hf1 Hf2]. apply Forall_inv in Hf2.
      destruct (walk_follow H h fr y w w' r (BObj a) false 0 Hh Hfol Hc Hr (fun _ => Hf1) ltac:(by left)) as (z & v' & Hz & Hcz & Hrz).
      destruct (next_value H h fr z v' a o n v false 0 Hh Hcz Hrz Ho Hv (fun _ => Hf2) ltac:(by left)) as (jj & w1 & Hnx & Hme & _ & e & k & f & Hi).
      rewrite Hy, walk_snoc, Hz, Hnx. eexists. split; [done|]. by exists o, jj, e, k, f.
    + rewrite bool_decide_eq_true_2 in Hfp by done. subst s. cbn [cls_of option_map snd] in *. rewrite Hy.
      inversion Hfol as [|a' o1 n1 w1 r1 v1 Ho1 Hn1 Hf1]; subst.
      * assert (o' = o) as -> by congruence. cbn [app] in *. destruct Hfp as [Hfp _].
        destruct (next_self H h fr a o d j n v false 0 Hh Ho Hp Hv (Hto eq_refl d eq_refl) Hfp ltac:(by left)) as (jj & w1 & Hnx & Hme & _ & e & k & f & Hi).
        cbn [walk]. rewrite Hnx. eexists. split; [done|]. by exists o, jj, e, k, f.
      * assert (o' = o1) as -> by congruence. cbn [app] in *. destruct Hfp as [Hfp Hfp2]. apply Forall_app in Hfp2 as [Hfp2 Hfp3]. apply Forall_inv in Hfp3.
        destruct (next_self H h fr b o1 d j n1 w1 false 0 Hh Ho1 Hp Hn1 (Hto eq_refl d eq_refl) Hfp ltac:(by left)) as (jj & w2 & Hnx & Hme & Hr2 & _).
        cbn [walk]. rewrite Hnx. rewrite walk_snoc.
        destruct (walk_follow H h fr (FMember (b, jj) n1) w1 w2 r1 (BObj a) false 0 Hh Hf1 Hme Hr2 (fun _ => Hfp2) ltac:(by left)) as (z & v' & Hz & Hcz & Hrz).
        destruct (next_value H h fr z v' a o n v false 0 Hh Hcz Hrz Ho Hv (fun _ => Hfp3) ltac:(by left)) as (jj3 & w3 & Hnx3 & Hme3 & _ & e & k & f & Hi).
        rewrite Hz, Hnx3. eexists. split; [done|]. by exists o, jj3, e, k, f.
Qed.

(** ** Storing *)
Lemma head_name c ls : shape c ls -> exists l r, ls = l :: r /\ c_name (l_cls l) = c.
Proof.
  intros Hs. destruct (shape_at _ _ _ _ Hs (pos_here c)) as (k & k' & F & Hl & Hli & _). destruct ls as [|l r]; [done|]. injection Hl as ->.
  eexists _, r. split; [done|]. apply Hli.
Qed.
Lemma instance_of c ls t : shape c ls -> isa P c t \/ t = w_object -> is_instance ls t = true.
Proof.
  intros Hs [Hi| ->]; unfold is_instance; apply orb_true_iff; [left|right; apply str_eqb_refl].
  destruct (isa_pos _ _ Hi) as (j & Hp). destruct (shape_at _ _ _ _ Hs Hp) as (k & k' & F & Hl & Hli & _).
  apply existsb_exists. exists (Layer k' F). split; [apply elem_of_list_In; by eapply elem_of_list_lookup_2|]. apply str_eqb_true. apply Hli.
Qed.
Lemma instance_only c ls t : shape c ls -> is_instance ls t = true -> isa P c t \/ t = w_object.
Proof.
  intros Hs Hi. unfold is_instance in Hi. apply orb_true_iff in Hi as [Hi|Hi]; [|right; by apply str_eqb_true in Hi]. left.
  induction Hs as [c k k' F Hl Hb _|c k k' F b r Hl Hb _ Hs IH]; cbn [existsb l_cls] in Hi; apply orb_true_iff in Hi as [Hi|Hi].
  - apply str_eqb_true in Hi. destruct Hl as (Hk & Hn). rewrite <- Hi. rewrite (proj1 Hn). constructor.
  - done.
  - apply str_eqb_true in Hi. destruct Hl as (Hk & Hn). rewrite <- Hi. rewrite (proj1 Hn). constructor.
  - destruct Hl as (Hk & Hn). eapply isa_up; [exact Hk|done|by apply IH].
Qed.
Lemma caught_iff H h i o c : rel_heap H h -> H !! i = Some o -> caught h (VObj i) c = true <-> taken P (o_class o) c.
Proof.
  intros Hh Ho. destruct (Forall2_lookup_l _ _ _ _ _ Hh Ho) as (ls & Hls & Hro). cbn [caught]. unfold obj in *. rewrite Hls. change (default [] (Some ls)) with ls. split.
  - apply instance_only, Hro.
  - apply instance_of, Hro.
Qed.
Lemma holds_type H h u t old : rel_heap H h -> holds H u t -> rel u old -> type_name h old = t.
Proof.
  intros Hh [t'|a o Ho] Hr; destruct old; cbn in Hr; try done. subst. cbn [type_name].
  destruct (Forall2_lookup_l _ _ _ _ _ Hh Ho) as (ls & Hls & Hro). unfold obj in *. rewrite Hls. destruct (head_name _ _ (proj1 Hro)) as (l & r & -> & Hn). done.
Qed.
Lemma rel_assigned H h u v w old v' : rel_heap H h -> takes true P H u v w -> rel u old -> rel v v' -> exists w', assigned h old v' = Some w' /\ rel w w'.
Proof.
  intros Hh Ht Hu Hv. destruct Ht as [i j|i b|a b|a j|u t t' Hho|u t a o Hho Ho Hpk].
  1-4: destruct old; cbn in Hu; try done; destruct v'; cbn in Hv; try done; subst; eexists; split; done.
  - destruct v' as [| | |p t0|]; cbn in Hv; try done. subst t0. inversion Hho; subst; destruct old; cbn in Hu; try done; destruct p; eexists; split; done.
  - destruct v' as [| |b| |]; cbn in Hv; try done. subst b. destruct (Forall2_lookup_l _ _ _ _ _ Hh Ho) as (ls & Hls & Hro).
    pose proof (holds_type H h u t old Hh Hho Hu) as Htn. pose proof (instance_of _ _ t (proj1 Hro) (Hpk eq_refl)) as Hin.
    exists (VObj a). split; [|done]. inversion Hho; subst; destruct old; cbn in Hu; try done; cbn [assigned]; unfold obj in *; rewrite Hls; change (default [] (Some ls)) with ls; rewrite Hin; done.
Qed.
Lemma rel_passed t v w : rel v w -> rel (given t v) (passed t w).
Proof. by destruct v, w, t. Qed.
Lemma set_local_rel E V x v w : Forall2 rel_block E V -> rel v w -> Forall2 rel_block (set_local E x v) (vset V x w).
Proof.
  intros H Hr. induction H as [|m b E V Hb H IH]; cbn; [constructor|]. pose proof (Hb x) as Hx.
  destruct (m x) as [u|] eqn:Hm, (get x b) as [u'|] eqn:Hg; cbn in Hx; try done.
  - constructor; [|done]. intros y. rewrite (get_put _ _ _ _ _ Hg). unfold upd. specialize (Hb y).
    destruct (decide (y = x)) as [->|Hne].
    + by rewrite bool_decide_eq_true_2, str_eqb_refl.
    + rewrite bool_decide_eq_false_2 by done. rewrite (proj2 (str_eqb_false x y)) by congruence. done.
  - by constructor.
Qed.
Lemma set_local_in E x v m y u : m ∈ set_local E x v -> m y = Some u -> exists m' u', m' ∈ E /\ m' y = Some u'.
Proof.
  induction E as [|m0 E IH]; cbn; [by intros ?%elem_of_nil|]. destruct (m0 x) as [u0|] eqn:Hm0.
  - intros [->|Hin]%elem_of_cons Hy.
    + unfold upd in Hy. destruct (decide (y = x)) as [->|Hne].
      * exists m0, u0. split; [by left|done].
      * rewrite bool_decide_eq_false_2 in Hy by done. exists m0, u. split; [by left|done].
    + exists m, u. split; [by right|done].
  - intros [->|Hin]%elem_of_cons Hy.
    + exists m0, u. split; [by left|done].
    + destruct (IH Hin Hy) as (m' & u' & H1 & H2). exists m', u'. split; [by right|done].
Qed.
Lemma shape_insert c ls j l n w : shape c ls -> ls !! j = Some l -> shape c (<[j := Layer (l_cls l) (put n w (l_fields l))]> ls).
Proof.
  intros Hs. revert j. induction Hs as [c k k' F Hk Hb HF|c k k' F b r Hk Hb HF Hr IH]; intros j Hj.
  - destruct j; [|done]. injection Hj as <-. cbn. eapply shape_top; try done. by rewrite put_names.
  - destruct j as [|j]; cbn.
    + injection Hj as <-. cbn. eapply shape_up; try done. by rewrite put_names.
    + eapply shape_up; try done. by apply IH.
Qed.
Lemma rel_obj_set o ls e k f jj l v w old : rel_obj o ls -> pos (o_class o) e jj -> is_class P e k -> In f (c_fields k) -> ls !! jj = Some l ->
  get (f_name f) (l_fields l) = Some old -> rel v w ->
  rel_obj (BObject (o_class o) (upd (o_member o) (f_name f) v)) (<[jj := Layer (l_cls l) (put (f_name f) w (l_fields l))]> ls).
Proof.
  intros (Hs & Hval & Hdom) Hp Hk Hf Hl Hg Hr. unfold obj in *. split_and!; cbn [o_class o_member].
  - by apply shape_insert.
  - intros j l' n Hj Hn. unfold obj in Hj. unfold upd. destruct (decide (j = jj)) as [->|Hne].
    + rewrite list_lookup_insert in Hj by (by eapply lookup_lt_Some). injection Hj as <-. cbn [l_fields] in *. rewrite put_names in Hn.
      rewrite (get_put _ _ _ _ _ Hg). destruct (decide (n = f_name f)) as [->|Hnn].
      * rewrite bool_decide_eq_true_2, str_eqb_refl by done. by exists v, w.
      * rewrite bool_decide_eq_false_2 by done. rewrite (proj2 (str_eqb_false (f_name f) n)) by congruence. by apply (Hval jj).
    + rewrite list_lookup_insert_ne in Hj by done. destruct (decide (n = f_name f)) as [->|Hnn].
      * exfalso. apply Hne. destruct (shape_layer _ _ _ _ Hs Hj) as (d & k2 & Hpd & Hli & HF). rewrite HF in Hn. apply in_map_iff in Hn as (g & Hgn & Hgi).
        assert (d = e) as ->. { eapply (field_once (o_class o) d k2 g e k f); try done; [by eapply pos_isa|apply Hli|by eapply pos_isa]. }
        eapply pos_det; [by eapply shape_height|done|done].
      * rewrite bool_decide_eq_false_2 by done. by apply (Hval j).
  - intros n u. unfold upd. destruct (decide (n = f_name f)) as [->|Hnn].
    + intros _. exists e, k, f. split_and!; try done. by eapply pos_isa.
    + rewrite bool_decide_eq_false_2 by done. apply Hdom.
Qed.
Lemma rel_place_keeps H H' pl z : keeps H H' -> rel_place H pl z -> rel_place H' pl z.
Proof.
  intros K. destruct pl as [x|a n]; [done|]. intros (o & jj & e & k & f & Hz & Ho & Hp & Hr). destruct (K a o Ho) as (o' & Ho' & Hc & _).
  exists o', jj, e, k, f. split_and!; try done; try apply Hr. congruence.
Qed.
Lemma vlook_some E V x v : Forall2 rel_block E V -> local E x = Some v -> exists w, vlook V x = Some w /\ rel v w.
Proof. intros H Hl. pose proof (local_vlook _ _ x H) as Hr. rewrite Hl in Hr. destruct (vlook V x) as [w|]; [|done]. by exists w. Qed.
Lemma store_ok s E H E1 H1 B st fr pl z v w :
  stored true P pl v E H E1 H1 -> rel_place H pl z -> rel_frame H s E fr -> rel_heap H (s_heap st) -> b_out B = s_out st -> rel v w ->
  exists st' fr', store st fr z w = Ok (st', fr') /\ rel_state (BState H1 (b_out B)) st' /\ rel_frame H1 s E1 fr' /\ keeps H H1.
Proof.
  intros Hs Hp HF Hh Hout Hr. pose proof HF as (Hvars & Hloc & Hth & Hself). destruct Hs as [x u v v1 E H Hl Ht|a n o u v v1 E H Ho Hm Ht].
  - cbn in Hp. subst z. destruct (vlook_some _ _ _ _ Hvars Hl) as (old & Hv & Hold). cbn [store]. rewrite Hv.
    destruct (rel_assigned _ _ _ _ _ _ _ Hh Ht Hold Hr) as (w1 & Has & Hr1). rewrite Has. eexists _, _. split; [done|].
    split; [done|]. split; [|apply keeps_refl]. split_and!; try done.
    + cbn. by apply set_local_rel.
    + intros m y u' Hm Hy. destruct (set_local_in _ _ _ _ _ _ Hm Hy) as (m' & u2 & H1 & H2). by eapply Hloc.
  - destruct Hp as (o' & jj & e & k & f & -> & Ho' & Hpos & Hk & Hf & <-). assert (o' = o) as -> by congruence.
    destruct (Forall2_lookup_l _ _ _ _ _ Hh Ho) as (ls & Hls & Hro).
    destruct (member_value o ls e k f jj u Hro Hm Hpos Hk Hf) as (l & old & Hlj & Hg & Hrel).
    destruct (rel_assigned _ _ _ _ _ _ _ Hh Ht Hrel Hr) as (w1 & Has & Hr1).
    cbn [store]. rewrite (member_at _ _ _ _ _ _ _ Hls Hlj Hg), Has. eexists _, _. split; [done|].
    assert (keeps H (<[a:=BObject (o_class o) (upd (o_member o) (f_name f) v1)]> H)) as K.
    { unfold keeps, bheap. intros b ob Hb. unfold bheap in *. destruct (decide (b = a)) as [->|Hne].
      - rewrite list_lookup_insert by (by eapply lookup_lt_Some). eexists. split; [done|]. assert (ob = o) as -> by congruence.
        split; [done|]. intros n. cbn [o_member]. unfold upd. destruct (decide (n = f_name f)) as [->|Hn].
        + rewrite bool_decide_eq_true_2 by done. rewrite Hm. done.
        + by rewrite bool_decide_eq_false_2.
      - rewrite list_lookup_insert_ne by done. by exists ob. }
    split; [|split; [by eapply rel_frame_keeps|done]]. split; cbn [b_heap b_out s_heap s_out]; [|done].
    unfold set_member. cbn [fst snd]. rewrite Hls, Hlj. apply Forall2_insert; [done|]. by eapply rel_obj_set.
Qed.

(** ** Creation *)
Lemma with_fields_in k M f : NoDup (map f_name (c_fields k)) -> In f (c_fields k) -> with_fields k M (f_name f) = Some (start (f_ty f)).
Proof.
  unfold with_fields. induction (c_fields k) as [|g l IH]; cbn; [done|]. intros [Hn Hd]%NoDup_cons [->|Hin].
  - unfold upd. by rewrite bool_decide_eq_true_2.
  - unfold upd. rewrite bool_decide_eq_false_2; [by apply IH|]. intros Heq. apply Hn. rewrite <- Heq. apply elem_of_list_In. by apply in_map.
Qed.
Lemma with_fields_out k M n : (forall f, In f (c_fields k) -> f_name f <> n) -> with_fields k M n = M n.
Proof.
  unfold with_fields. induction (c_fields k) as [|g l IH]; cbn; [done|]. intros H. unfold upd.
  rewrite bool_decide_eq_false_2; [apply IH; intros f Hf; apply H; by right|]. intros ->. by apply (H g); [left|].
Qed.
Lemma with_fields_some k M n v : with_fields k M n = Some v -> (exists f, In f (c_fields k) /\ f_name f = n) \/ M n = Some v.
Proof.
  unfold with_fields. induction (c_fields k) as [|g l IH]; cbn; [by right|]. unfold upd. case_bool_decide as Hb.
  - intros _. left. exists g. split; [by left|done].
  - intros H. destruct (IH H) as [(f & Hf & Hn)|H']; [|by right]. left. exists f. split; [by right|done].
Qed.
Lemma start_fields q l f : NoDup (map f_name l) -> In f l -> get (f_name f) (map (fun x => (f_name x, start_value q (f_ty x))) l) = Some (start_value q (f_ty f)).
Proof.
  induction l as [|g l IH]; cbn [map]; [done|]. intros [Hn Hd]%NoDup_cons [->|Hin]; rewrite get_cons; [by rewrite str_eqb_refl|].
  rewrite (proj2 (str_eqb_false _ _)); [by apply IH|]. intros Heq. apply Hn. rewrite Heq. apply elem_of_list_In. by apply in_map.
Qed.
Lemma rel_start q t : rel (start t) (start_value q t).
Proof. by destruct t. Qed.
Lemma fresh_height c M : fresh P c M -> exists n, height c n.
Proof. induction 1 as [c k Hk Hb|c k b M Hk Hb Hf [n IH]]; [exists 1; by eapply height_top|exists (S n); by eapply height_up]. Qed.
Lemma created_ok c M : fresh P c M -> forall n f a i, height c n -> n <= f ->
  exists ls, create L f a i c = Ok ls /\ rel_obj (BObject c M) ls.
Proof.
  induction 1 as [c k Hk Hb|c k b M Hk Hb Hfr IH]; intros n f a i Hn Hle.
  - inversion Hn as [c' k' Hk' Hb'|c' k' b' n' Hk' Hb' Hn']; subst; pose proof (class_unique _ _ _ Hk Hk'); subst k'; [|congruence].
    destruct f as [|f]; [lia|]. cbn [create]. destruct (class_loaded c k Hk) as (k' & Hc & Hl). rewrite Hc.
    pose proof Hl as (_ & _ & -> & -> & _). rewrite Hb. cbn [rbind]. eexists. split; [done|]. pose proof (sound_of _ _ Hk) as (Hd & _).
    split_and!; cbn [o_class o_member].
    + eapply shape_top; try done. by rewrite map_map.
    + intros j l m Hj Hm. destruct j; [|done]. injection Hj as <-. cbn [l_fields] in *. rewrite map_map in Hm. cbn in Hm. apply in_map_iff in Hm as (g & <- & Hg).
      eexists _, _. split; [by apply with_fields_in|]. split; [by apply start_fields|]. apply rel_start.
    + intros m v [(g & Hg & Hgn)|Hx]%with_fields_some; [|done]. exists c, k, g. split_and!; try done. constructor.
  - inversion Hn as [c' k' Hk' Hb'|c' k' b' n' Hk' Hb' Hn']; subst; pose proof (class_unique _ _ _ Hk Hk'); subst k'; [congruence|].
    assert (b' = b) as -> by congruence. destruct f as [|f]; [lia|]. cbn [create]. destruct (class_loaded c k Hk) as (k' & Hc & Hl). rewrite Hc.
    pose proof Hl as (_ & _ & -> & -> & _). rewrite Hb. destruct (IH n' f a (S i) Hn' ltac:(lia)) as (ls & Hcr & (Hs & Hval & Hdom)). rewrite Hcr. cbn [rbind].
    eexists. split; [done|]. pose proof (sound_of _ _ Hk) as (Hd & _). cbn [o_class o_member] in *. split_and!; cbn [o_class o_member].
    + eapply shape_up; try done. by rewrite map_map.
    + intros j l m Hj Hm. destruct j as [|j].
      * injection Hj as <-. cbn [l_fields] in *. rewrite map_map in Hm. cbn in Hm. apply in_map_iff in Hm as (g & <- & Hg).
        eexists _, _. split; [by apply with_fields_in|]. split; [by apply start_fields|]. apply rel_start.
      * cbn in Hj. rewrite with_fields_out; [by apply (Hval j)|]. intros g Hg Hgn.
        destruct (shape_layer _ _ _ _ Hs Hj) as (d & kd & Hp & Hli & HF). rewrite HF in Hm. apply in_map_iff in Hm as (g2 & Hg2 & Hin2).
        assert (c = d) as ->. { eapply (field_once c c k g d kd g2); try done; [constructor| |apply Hli|congruence]. eapply isa_up; [done|done|by eapply pos_isa]. }
        by eapply (no_loop d k b j).
    + intros m v [(g & Hg & Hgn)|Hx]%with_fields_some.
      * exists c, k, g. split_and!; try done. constructor.
      * destruct (Hdom m v Hx) as (d & kd & g & Hi & Hr). exists d, kd, g. split; [|done]. by eapply isa_up.
Qed.
Lemma depth_enough c n : height c n -> n <= depth L.
Proof.
  intros Hn%height_bound. destruct loaded as (ks & fs & -> & Hks & _). unfold depth. cbn [p_classes]. apply Forall2_length in Hks.
  rewrite map_length in Hks. lia.
Qed.
Lemma constructor_found c k q i ls : is_class P c k -> has_method k q -> fits w_new i q -> m_vis q <> Private -> shape c ls ->
  exists q', obj_method L ls true 2 w_new i = Some (InLayer 0 q') /\ elab_method P1 (Some c) q = Ok q'.
Proof.
  intros Hk Hq Hf Hv Hs. destruct (shape_at _ _ _ _ Hs (pos_here c)) as (k0 & k' & F & Hl & Hli & HF). destruct ls as [|l r]; [done|]. injection Hl as ->.
  pose proof (class_unique _ _ _ Hk (proj1 Hli)); subst k0.
  destruct (own_found c k k' w_new i 2 q Hli Hq Hf) as (q' & Ho & He). { by destruct (m_vis q). }
  exists q'. cbn [obj_method l_cls]. by rewrite Ho.
Qed.

(** ** The local names the generator knows *)
Lemma elab_block_eq D void G l : elab_stmt P1 D void G (SBlock l) = rbind (elab_list P1 D void ([] :: G) l) (fun r => Ok (SBlock (fst r), G)).
Proof.
  cbn [elab_stmt]. f_equal. generalize ([] :: G : senv). induction l as [|s l IH]; intros G0; [done|]. cbn [elab_list].
  destruct (elab_stmt P1 D void G0 s); cbn [rbind]; try done. by rewrite IH.
Qed.
Lemma elab_while_eq D void G e l : elab_stmt P1 D void G (SWhile e l) =
  rbind (elab P1 D G e) (fun y => rbind (elab_stmt P1 D void G (SBlock l)) (fun r => match fst r with SBlock l' => Ok (SWhile (fst y) l', G) | _ => UB end)).
Proof.
  rewrite elab_block_eq. cbn [elab_stmt]. destruct (elab P1 D G e) as [y| | |]; cbn [rbind]; try done.
  assert (forall G0, (fix go G l := match l with
                  | [] => Ok ([], G)
                  | s :: l => let! x := elab_stmt P1 D void G s in let! y := go (snd x) l in Ok (fst x :: fst y, snd y)
                  end) G0 l = elab_list P1 D void G0 l) as ->.
  { induction l as [|s l IH]; intros G0; [done|]. cbn [elab_list]. destruct (elab_stmt P1 D void G0 s); cbn [rbind]; try done. by rewrite IH. }
  by destruct (elab_list P1 D void ([] :: G) l).
Qed.
Fixpoint elab_catches (D : option str) (R : option ty) (G : senv) (ks : list (str * str * stmt)) : res (list (str * str * stmt)) :=
  match ks with
  | [] => Ok []
  | k :: ks =>
      if type_ok P1 (TObj (fst (fst k))) then
        let! y := elab_stmt P1 D R ([(snd (fst k), TObj (fst (fst k)))] :: G) (snd k) in
        let! z := elab_catches D R G ks in Ok ((fst k, fst y) :: z)
      else Throw "invalid symbol"
  end.
Lemma elab_try_eq D R G a ks : elab_stmt P1 D R G (STry a ks) =
  rbind (elab_stmt P1 D R G a) (fun x => rbind (elab_catches D R G ks) (fun r => Ok (STry (fst x) r, G))).
Proof.
  cbn [elab_stmt]. destruct (elab_stmt P1 D R G a) as [x| | |]; cbn [rbind]; try done. f_equal.
  induction ks as [|k ks IH]; [done|]. cbn [elab_catches]. destruct (type_ok P1 (TObj (fst (fst k)))); [|done].
  destruct (elab_stmt P1 D R ([(snd (fst k), TObj (fst (fst k)))] :: G) (snd k)); cbn [rbind]; try done. by rewrite IH.
Qed.
Lemma no_catch H h i o D R G ks ks' : rel_heap H h -> H !! i = Some o -> elab_catches D R G ks = Ok ks' ->
  Forall (fun k => ~ taken P (o_class o) (fst (fst k))) ks -> find (fun k => caught h (VObj i) (fst (fst k))) ks' = None.
Proof.
  intros Hh Ho. revert ks'. induction ks as [|k ks IH]; intros ks' He Hk; cbn [elab_catches] in He; [by injection He as <-|].
  apply Forall_cons in Hk as [Hk1 Hk2]. destruct (type_ok P1 (TObj (fst (fst k)))); [|done]. bnd He. bnd He. injection He as <-. cbn [find fst].
  destruct (caught h (VObj i) (fst (fst k))) eqn:Hc; [by apply (caught_iff _ _ _ _ _ Hh Ho) in Hc|]. by apply IH.
Qed.
Lemma find_catch H h i o D R G k1 c x b k2 ks' : rel_heap H h -> H !! i = Some o -> elab_catches D R G (k1 ++ (c, x, b) :: k2) = Ok ks' ->
  fold_right (fun k => and (fine_local P D (snd (fst k)) /\ fine_stmt P D (snd k))) True (k1 ++ (c, x, b) :: k2) ->
  Forall (fun k => ~ taken P (o_class o) (fst (fst k))) k1 -> taken P (o_class o) c ->
  exists b' Gb, find (fun k => caught h (VObj i) (fst (fst k))) ks' = Some (c, x, b') /\ elab_stmt P1 D R ([(x, TObj c)] :: G) b = Ok (b', Gb) /\
    fine_local P D x /\ fine_stmt P D b /\ assigned h (VNull PGlobal c) (VObj i) = Some (VObj i).
Proof.
  intros Hh Ho. revert ks'. induction k1 as [|k k1 IH]; intros ks' He Hf Hk Hc; cbn [app elab_catches fst snd] in He.
  - destruct (type_ok P1 (TObj c)); [|done]. bnd He. bnd He. injection He as <-. destruct a as [b' Gb]. exists b', Gb. destruct Hf as [[Hx Hb'] _]. cbn [fst snd] in Hx, Hb'.
    pose proof (proj2 (caught_iff _ _ _ _ _ Hh Ho) Hc) as Hc'. cbn [find fst]. rewrite Hc'. split_and!; try done. cbn [assigned type_name]. cbn [caught] in Hc'. by rewrite Hc'.
  - apply Forall_cons in Hk as [Hk1 Hk2]. destruct (type_ok P1 (TObj (fst (fst k)))); [|done]. bnd He. bnd He. injection He as <-. cbn [find fst].
    destruct (caught h (VObj i) (fst (fst k))) eqn:Hc1; [by apply (caught_iff _ _ _ _ _ Hh Ho) in Hc1|]. apply IH; try done. apply Hf.
Qed.
Lemma elab_this D : forall s void G s' G', elab_stmt P1 D void G s = Ok (s', G') -> fine_stmt P D s -> slook G w_this = None -> slook G' w_this = None.
Proof.
  fix IH 1. intros s void G s' G' He Hf HG. destruct s as [t x e|p e|e|e|[e|]|e a b|l|e l| | |e|a ks|].
  - cbn [elab_stmt] in He. destruct G as [|bl G]; [discriminate He|]. destruct (get x bl); [discriminate He|]. destruct (type_ok P1 t); [|discriminate He]. bnd He. destruct (can_init P1 t (snd a)); [|discriminate He]. injection He as _ <-. destruct Hf as [(Hx & _) _].
    cbn [slook] in *. rewrite get_cons. rewrite (proj2 (str_eqb_false x w_this) Hx). exact HG.
  - cbn [elab_stmt] in He. bnd He. destruct (snd a) as [tl|]; [|discriminate He]. bnd He. destruct (can_assign tl (snd a0)); [|discriminate He]. injection He as _ <-. exact HG.
  - cbn [elab_stmt] in He. bnd He. injection He as _ <-. exact HG.
  - cbn [elab_stmt] in He. bnd He. injection He as _ <-. exact HG.
  - cbn [elab_stmt] in He. bnd He. case_bool_decide; [|discriminate He]. injection He as _ <-. exact HG.
  - cbn [elab_stmt] in He. case_bool_decide; [|discriminate He]. injection He as _ <-. exact HG.
  - cbn [elab_stmt] in He. bnd He. destruct (elab_stmt P1 D void G a) as [[a' Ga]| | |] eqn:Ha; cbn [rbind] in He; try discriminate He.
    destruct (elab_stmt P1 D void (snd (a', Ga)) b) as [[b' Gb]| | |] eqn:Hbb; cbn [rbind] in He; try discriminate He. injection He as _ <-. cbn [snd] in *.
    destruct Hf as (_ & Hfa & Hfb). exact (IH b _ _ _ _ Hbb Hfb (IH a _ _ _ _ Ha Hfa HG)).
  - rewrite elab_block_eq in He. bnd He. injection He as _ <-. exact HG.
  - rewrite elab_while_eq in He. bnd He. bnd He. destruct (fst a0); try discriminate He. injection He as _ <-. exact HG.
  - injection He as _ <-. exact HG.
  - injection He as _ <-. exact HG.
  - cbn [elab_stmt] in He. bnd He. injection He as _ <-. exact HG.
  - rewrite elab_try_eq in He. bnd He. bnd He. injection He as _ <-. exact HG.
  - injection He as _ <-. exact HG.
Qed.

(** ** Everything together *)
Definition rel_flow (f : bflow) (g : flow) : Prop := match f, g with BGo, Go | BBrk, Brk | BCont, Cont => True | BRet v, Ret w | BThr v, Thr w => rel v w | _, _ => False end.
Definition Pev (s : self) (E : benv) (e : expr) (B : bstate) (v : bval) (B' : bstate) : Prop :=
  forall G e' t fr sc st, elab P1 (cls_of s) G e = Ok (e', t) -> fine_expr P (cls_of s) e -> slook G w_this = None ->
    sc = InFrame \/ closed e = true -> rel_frame (b_heap B) s E fr -> rel_state B st ->
    exists n0 w st', (forall n, n0 <= n -> eval n L fr sc e' st = Ok (Val (w, st'))) /\ rel v w /\ rel_state B' st' /\ keeps (b_heap B) (b_heap B').
Definition Pevx (s : self) (E : benv) (e : expr) (B : bstate) (v : bval) (B' : bstate) : Prop :=
  forall G e' t fr sc st, elab P1 (cls_of s) G e = Ok (e', t) -> fine_expr P (cls_of s) e -> slook G w_this = None ->
    sc = InFrame \/ closed e = true -> rel_frame (b_heap B) s E fr -> rel_state B st ->
    exists n0 w st', (forall n, n0 <= n -> eval n L fr sc e' st = Ok (Exn w st')) /\ rel v w /\ rel_state B' st' /\ keeps (b_heap B) (b_heap B').
(** The first expressions of a list have values, then one throws. *)
Inductive stops (fr : frame) (sc : scope) : list expr -> state -> value -> state -> Prop :=
| stops_here n0 e l st w st' : (forall n, n0 <= n -> eval n L fr sc e st = Ok (Exn w st')) -> stops fr sc (e :: l) st w st'
| stops_later n0 e l st u st1 w st' : (forall n, n0 <= n -> eval n L fr sc e st = Ok (Val (u, st1))) -> stops fr sc l st1 w st' -> stops fr sc (e :: l) st w st'.
Definition Pevsx (s : self) (E : benv) (l : list expr) (B : bstate) (v : bval) (B' : bstate) : Prop :=
  forall G l' fr sc st, each (elab P1 (cls_of s) G) l = Ok l' -> fold_right (fun a => and (fine_expr P (cls_of s) a)) True l -> slook G w_this = None ->
    sc = InFrame \/ forallb closed l = true -> rel_frame (b_heap B) s E fr -> rel_state B st ->
    exists w st', stops fr sc (map fst l') st w st' /\ rel v w /\ rel_state B' st' /\ keeps (b_heap B) (b_heap B').
Lemma stops_list fr sc l st w st' : stops fr sc l st w st' -> exists n0, forall n, n0 <= n -> eval_list n L fr sc l st = Ok (Exn w st').
Proof.
  induction 1 as [n0 e l st w st' H|n0 e l st u st1 w st' H _ [n1 IH]].
  - exists (S n0). intros [|n] Hn; [lia|]. cbn [eval_list]. by rewrite H by lia.
  - exists (S (n0 + n1)). intros [|n] Hn; [lia|]. cbn [eval_list]. rewrite H by lia. cbn [obind snd]. by rewrite IH by lia.
Qed.
Lemma stops_one fr sc a st w st' : stops fr sc [a] st w st' -> exists n0, forall n, n0 <= n -> eval n L fr sc a st = Ok (Exn w st').
Proof. intros H. inversion H as [n0 ? ? ? ? ? Hn|? ? ? ? ? ? ? ? ? Hs]; subst; [by exists n0|]. inversion Hs. Qed.
Lemma stops_two fr sc a b st w st' : stops fr sc [a; b] st w st' ->
  (exists n0, forall n, n0 <= n -> eval n L fr sc a st = Ok (Exn w st')) \/
  (exists n0 u st1, forall n, n0 <= n -> eval n L fr sc a st = Ok (Val (u, st1)) /\ eval n L fr sc b st1 = Ok (Exn w st')).
Proof.
  intros H. inversion H as [n0 ? ? ? ? ? Hn|n0 ? ? ? u st1 ? ? Hn Hs]; subst; [left; by exists n0|]. apply stops_one in Hs as [n1 Hs]. right. exists (n0 + n1), u, st1.
  intros n Hle. split; [apply Hn; lia|apply Hs; lia].
Qed.
Definition Pevs (s : self) (E : benv) (l : list expr) (B : bstate) (vs : list bval) (B' : bstate) : Prop :=
  forall G l' fr sc st, each (elab P1 (cls_of s) G) l = Ok l' -> fold_right (fun a => and (fine_expr P (cls_of s) a)) True l -> slook G w_this = None ->
    sc = InFrame \/ forallb closed l = true -> rel_frame (b_heap B) s E fr -> rel_state B st ->
    exists n0 ws st', (forall n, n0 <= n -> eval_list n L fr sc (map fst l') st = Ok (Val (ws, st'))) /\ Forall2 rel vs ws /\ rel_state B' st' /\ keeps (b_heap B) (b_heap B').
Definition Pdoes (s : self) (q : meth) (vs : list bval) (B : bstate) (f : bflow) (B' : bstate) : Prop :=
  forall q' pt ws st, elab_method P1 (cls_of s) q = Ok q' -> fine_method P (cls_of s) q -> rel_self (b_heap B) s pt -> Forall2 rel vs ws -> rel_state B st ->
    exists n0 g st', (forall n, n0 <= n -> body n L pt pt q' ws st = Ok (g, st')) /\ rel_flow f g /\ rel_state B' st' /\ keeps (b_heap B) (b_heap B').
Definition Pcalls (s : self) (q : meth) (vs : list bval) (B : bstate) (v : bval) (B' : bstate) : Prop :=
  forall q' pt ws st, elab_method P1 (cls_of s) q = Ok q' -> fine_method P (cls_of s) q -> rel_self (b_heap B) s pt -> Forall2 rel vs ws -> rel_state B st ->
    exists n0 w st', (forall n, n0 <= n -> call n L pt pt q' ws st = Ok (Val (w, st'))) /\ rel v w /\ rel_state B' st' /\ keeps (b_heap B) (b_heap B').
Definition Psts (s : self) (E : benv) (l : list stmt) (B : bstate) (f : bflow) (E' : benv) (B' : bstate) : Prop :=
  forall void G l' G' fr st, elab_list P1 (cls_of s) void G l = Ok (l', G') -> Forall (fine_stmt P (cls_of s)) l -> slook G w_this = None ->
    rel_frame (b_heap B) s E fr -> rel_state B st ->
    exists n0 g fr' st', (forall n, n0 <= n -> exec_list n L fr l' st = Ok (g, fr', st')) /\ rel_flow f g /\ rel_frame (b_heap B') s E' fr' /\
      rel_state B' st' /\ keeps (b_heap B) (b_heap B').
Definition Pstx (s : self) (E : benv) (x : stmt) (B : bstate) (f : bflow) (E' : benv) (B' : bstate) : Prop :=
  forall void G x' G' fr st, elab_stmt P1 (cls_of s) void G x = Ok (x', G') -> fine_stmt P (cls_of s) x -> slook G w_this = None ->
    rel_frame (b_heap B) s E fr -> rel_state B st ->
    exists n0 g fr' st', (forall n, n0 <= n -> exec n L fr x' st = Ok (g, fr', st')) /\ rel_flow f g /\ rel_frame (b_heap B') s E' fr' /\
      rel_state B' st' /\ keeps (b_heap B) (b_heap B').

Lemma value_walk H h fr u w n r v only need : rel_heap H h -> rel u w -> follow H u (n :: r) v -> (need = 0 -> Forall (fine_name P) (n :: r)) -> mode only need ->
  exists y z v', in_scope h fr (InValue w) need n = Some y /\ walk h fr y only need r = Some z /\ content h fr z = Some v' /\ rel v v'.
Proof.
  intros Hh Hr Hf Hfn Hm. inversion Hf as [|a o n' w1 r' v' Ho Hn Hf1]; subst. destruct w; cbn in Hr; try done. subst a0. cbn [in_scope in_value].
  assert (mode false need) as Hm2. { destruct Hm as [[_ ?]|?]; [by left|by right]. }
  destruct (in_object_member H h a o n w1 false need Hh Ho Hn) as (jj & w2 & Hl & Hme & Hrel & _); [|done|].
  { intros Hz. specialize (Hfn Hz). by apply Forall_cons in Hfn as [? _]. }
  rewrite Hl. destruct (walk_follow H h fr (FMember (a, jj) n) w1 w2 r v only need Hh Hf1 Hme Hrel) as (z & v'' & Hz & Hc & Hr2); [|done|].
  { intros Hz. specialize (Hfn Hz). by apply Forall_cons in Hfn as [_ ?]. }
  by exists (FMember (a, jj) n), z, v''.
Qed.
Lemma params_rel ps vs ws : Forall2 rel vs ws -> rel_block (params ps vs) (pass ps ws).
Proof.
  intros H. revert ps. induction H as [|v w vs ws Hr H IH]; intros [|p ps]; cbn [params pass]; try done.
  intros x. rewrite get_cons. unfold upd. destruct (decide (x = snd p)) as [->|Hne].
  - rewrite bool_decide_eq_true_2, str_eqb_refl by done. by apply rel_passed.
  - rewrite bool_decide_eq_false_2 by done. rewrite (proj2 (str_eqb_false _ _)) by congruence. apply IH.
Qed.
Lemma params_fine D ps vs x v : Forall (fine_local P D) (map snd ps) -> params ps vs x = Some v -> fine_local P D x.
Proof.
  revert vs. induction ps as [|p ps IH]; intros [|u vs] Hf H; cbn in *; try done. apply Forall_cons in Hf as [H1 H2]. unfold upd in H. case_bool_decide as Hb.
  - by subst.
  - by eapply IH.
Qed.
Lemma rel_true v w b : true_value v = Some b -> rel v w -> is_true w = b.
Proof. destruct v, w; cbn; try done; congruence. Qed.

Lemma simulation :
  (forall s E e B v B', ev true P s E e B v B' -> Pev s E e B v B') /\
  (forall s E e B v B', evx true P s E e B v B' -> Pevx s E e B v B') /\
  (forall s E l B v B', evsx true P s E l B v B' -> Pevsx s E l B v B') /\
  (forall s E l B vs B', evs true P s E l B vs B' -> Pevs s E l B vs B') /\
  (forall s q vs B f B', does true P s q vs B f B' -> Pdoes s q vs B f B') /\
  (forall s q vs B v B', calls true P s q vs B v B' -> Pcalls s q vs B v B') /\
  (forall s E l B f E' B', sts true P s E l B f E' B' -> Psts s E l B f E' B') /\
  (forall s E x B f E' B', stx true P s E x B f E' B' -> Pstx s E x B f E' B').
Proof.
  apply rules_mut.
  - (* int *)
    intros s E z B G e' t fr sc st He _ _ _ _ Hst. injection He as <- _. exists 1, (VInt z), st. split_and!; try done; [|apply keeps_refl].
    intros [|n] Hn; [lia|done].
  - intros s E B G e' t fr sc st He _ _ _ _ Hst. injection He as <- _. exists 1, (VNull PNone w_object), st. split_and!; try done; [|apply keeps_refl].
    intros [|n] Hn; [lia|done].
  - (* path *)
    intros s E x r w v B Hfi Hfo G e' t fr sc st He [Hf Hkn] HG Hsc HF [Hh Hout]. destruct Hsc as [->|?]; [|done].
    cbn [elab] in He. destruct (name_of P1 (cls_of s) G (x :: r)) as [[p' sr]| | |] eqn:Hn; cbn [rbind] in He; try done. cbn [fst snd] in He.
    destruct sr as [t'|]; [|done]. injection He as <- _.
    assert (completed s p' (x :: r)) as Hc.
    { pose proof Hn as [->|(-> & d & Hd & Hx)]%name_shape; [by left| |done]. right. split; [done|]. exists d. split; [done|]. by intros ? ? [= <- <-]. }
    destruct (path_value _ _ s E fr x r p' w v false 0 Hh HF Hfi Hfo Hc ltac:(by left) Hf (this_checked _ _ _ _ _ _ Hkn HG Hn)) as (z & v' & Hz & Hcz & Hr).
    exists 1, v', st. split_and!; try done; [|apply keeps_refl]. intros [|n] Hn'; [lia|]. cbn [eval]. rewrite find_value_walk, Hz, Hcz. done.
  - (* call *)
    intros s E p args vs tq q v B B1 B2 _ IHa Ht _ IHc G e' t fr sc st He [[Hft Hkn] Hfa] HG Hsc HF Hst. destruct Hsc as [->|?]; [|done].
    cbn [elab] in He. destruct (name_of P1 (cls_of s) G p) as [[p' sr]| | |] eqn:Hn; cbn [rbind] in He; try done.
    destruct (each (elab P1 (cls_of s) G) args) as [l'| | |] eqn:Hl; cbn [rbind] in He; try done. cbn [fst snd] in He.
    destruct (called P1 (cls_of s) sr (map snd l')) as [t'| | |] eqn:Hc; cbn [rbind] in He; try done. injection He as <- _.
    destruct (IHa G l' fr InFrame st Hl Hfa HG (or_introl eq_refl) HF Hst) as (n1 & ws & st1 & Hev & Hws & [Hh1 Ho1] & K1).
    destruct (target_found _ _ s E fr G p p' sr _ tq q Hh1 (rel_frame_keeps _ _ _ _ _ K1 HF) Ht Hn ltac:(intros t0 ->; done) HG Hft Hkn) as (pt & q' & Hfm & Heq & Hrs & Hfq).
    destruct (IHc q' pt ws st1 Heq Hfq Hrs Hws (conj Hh1 Ho1)) as (n2 & w & st2 & Hca & Hr & Hst2 & K2).
    exists (S (n1 + n2)), w, st2. split_and!; try done; [|by eapply keeps_trans].
    intros [|n] Hn'; [lia|]. cbn [eval]. rewrite Hev by lia. cbn [rbind obind try_control fst snd]. rewrite map_length.
    assert (length l' = length args) as ->. { apply each_forall, Forall2_length in Hl. done. }
    rewrite Hfm. cbn [fst snd]. apply Hca. lia.
  - (* new *)
    intros s E c k args vs q M B B1 B2 _ IHa Hk Hq Hfit Hv Hfr _ IHd G e' t fr sc st He Hfa HG Hsc HF Hst.
    cbn [elab] in He. destruct (each (elab P1 (cls_of s) G) args) as [l'| | |] eqn:Hl; cbn [rbind] in He; try done.
    destruct (bp_method P1 (depth P1) c w_new (length args)) as [q0|]; [|done]. destruct (takes_args q0 (map snd l')); [|done]. injection He as <- _.
    destruct (IHa G l' fr sc st Hl Hfa HG Hsc HF Hst) as (n1 & ws & st1 & Hev & Hws & [Hh1 Ho1] & K1).
    destruct (fresh_height c M Hfr) as (hn & Hhn).
    assert (length (s_heap st1) = length (b_heap B1)) as Hlen by (symmetry; by eapply Forall2_length).
    destruct (created_ok c M Hfr hn (depth L) (length (b_heap B1)) 0 Hhn (depth_enough _ _ Hhn)) as (ls & Hcr & Hro).
    destruct (constructor_found c k q (length args) ls Hk Hq Hfit Hv (proj1 Hro)) as (q' & Hom & Heq).
    set (a := length (b_heap B1)) in *.
    assert (rel_state (BState (b_heap B1 ++ [BObject c M]) (b_out B1)) (State (s_heap st1 ++ [ls]) (s_out st1))) as Hst1.
    { split; [|done]. cbn [b_heap s_heap]. apply Forall2_app; [done|]. by constructor. }
    assert ((b_heap B1 ++ [BObject c M]) !! a = Some (BObject c M)) as Hnew by (by apply list_lookup_middle).
    assert (rel_self (b_heap (BState (b_heap B1 ++ [BObject c M]) (b_out B1))) (Some (a, c)) (Some (a, 0))) as Hrs.
    { exists (BObject c M), 0. split_and!; [done|done|constructor]. }
    assert (fine_method P (Some c) q) as Hfq by (by eapply picks_fine, picks_own).
    destruct (IHd q' (Some (a, 0)) ws _ Heq Hfq Hrs Hws Hst1) as (n2 & g & st2 & Hbo & Hfl & Hst2 & K2). destruct g; try done.
    exists (S (n1 + n2)), (VObj a), st2. split_and!; try done.
    + intros [|n] Hn'; [lia|]. cbn [eval]. rewrite Hev by lia. cbn [rbind obind try_control fst snd]. rewrite Hlen. fold a. rewrite Hcr. cbn [rbind]. rewrite map_length.
      assert (length l' = length args) as ->. { apply each_forall, Forall2_length in Hl. done. }
      rewrite Hom. rewrite Hbo by lia. done.
    + eapply keeps_trans; [done|]. eapply keeps_trans; [|done]. intros b o Hb. exists o. split; [|done]. cbn [b_heap]. by apply lookup_app_l_Some.
  - (* add *)
    intros s E a b x y B B1 B2 _ IH1 _ IH2 Hrng G e' t fr sc st He [Hf1 Hf2] HG Hsc HF Hst.
    cbn [elab] in He. destruct (elab P1 (cls_of s) G a) as [[a' ta]| | |] eqn:Ha; cbn [rbind] in He; try done.
    destruct (elab P1 (cls_of s) G b) as [[b' tb]| | |] eqn:Hb; cbn [rbind snd] in He; try done. case_bool_decide; [|done]. injection He as <- _. cbn [fst].
    assert ((sc = InFrame \/ closed a = true) /\ (sc = InFrame \/ closed b = true)) as [Hs1 Hs2].
    { destruct Hsc as [->|Hc]; [by split; left|]. cbn in Hc. apply andb_true_iff in Hc as [? ?]. by split; right. }
    destruct (IH1 G a' ta fr sc st Ha Hf1 HG Hs1 HF Hst) as (n1 & w1 & st1 & Hev1 & Hr1 & Hst1 & K1).
    destruct (IH2 G b' tb fr sc st1 Hb Hf2 HG Hs2 (rel_frame_keeps _ _ _ _ _ K1 HF) Hst1) as (n2 & w2 & st2 & Hev2 & Hr2 & Hst2 & K2).
    destruct w1; cbn in Hr1; try done. destruct w2; cbn in Hr2; try done. subst z z0.
    exists (S (n1 + n2)), (VInt (x + y)), st2. split_and!; try done; [|by eapply keeps_trans].
    intros [|n] Hn; [lia|]. cbn [eval]. rewrite Hev1 by lia. cbn [rbind obind try_control fst snd]. rewrite Hev2 by lia. cbn [rbind obind try_control fst snd].
    assert (in_range (x + y) = true) as ->. { unfold in_range. apply andb_true_iff. split; apply Z.leb_le; lia. }
    done.
  - (* less *)
    intros s E a b x y B B1 B2 _ IH1 _ IH2 G e' t fr sc st He [Hf1 Hf2] HG Hsc HF Hst.
    cbn [elab] in He. destruct (elab P1 (cls_of s) G a) as [[a' ta]| | |] eqn:Ha; cbn [rbind] in He; try done.
    destruct (elab P1 (cls_of s) G b) as [[b' tb]| | |] eqn:Hb; cbn [rbind snd] in He; try done. case_bool_decide; [|done]. injection He as <- _. cbn [fst].
    assert ((sc = InFrame \/ closed a = true) /\ (sc = InFrame \/ closed b = true)) as [Hs1 Hs2].
    { destruct Hsc as [->|Hc]; [by split; left|]. cbn in Hc. apply andb_true_iff in Hc as [? ?]. by split; right. }
    destruct (IH1 G a' ta fr sc st Ha Hf1 HG Hs1 HF Hst) as (n1 & w1 & st1 & Hev1 & Hr1 & Hst1 & K1).
    destruct (IH2 G b' tb fr sc st1 Hb Hf2 HG Hs2 (rel_frame_keeps _ _ _ _ _ K1 HF) Hst1) as (n2 & w2 & st2 & Hev2 & Hr2 & Hst2 & K2).
    destruct w1; cbn in Hr1; try done. destruct w2; cbn in Hr2; try done. subst z z0.
    exists (S (n1 + n2)), (VBool (x <? y)%Z), st2. split_and!; try done; [| |by eapply keeps_trans].
    + intros [|n] Hn; [lia|]. cbn [eval]. rewrite Hev1 by lia. cbn [rbind obind try_control fst snd]. by rewrite Hev2 by lia.
    + cbn. case_bool_decide as Hlt; [by rewrite (proj2 (Z.ltb_lt _ _))|by rewrite (proj2 (Z.ltb_ge _ _)) by lia].
  - (* dot *)
    intros s E a p u v B B1 Hp _ IH Hfo G e' t fr sc st He [Hf1 Hf2] HG Hsc HF Hst.
    cbn [elab] in He. destruct (elab P1 (cls_of s) G a) as [[a' ta]| | |] eqn:Ha; cbn [rbind obind try_control fst snd] in He; try done.
    destruct ta as [[| |c]|]; try done. bnd He. destruct a0 as [[t0|]|]; try done. injection He as <- _.
    destruct (IH G a' _ fr sc st Ha Hf1 HG ltac:(done) HF Hst) as (n1 & w1 & st1 & Hev1 & Hr1 & [Hh1 Ho1] & K1).
    destruct p as [|n p]; [done|].
    destruct (value_walk _ _ fr u w1 n p v false 0 Hh1 Hr1 Hfo (fun _ => Hf2) ltac:(by left)) as (y & z & v' & Hy & Hz & Hc & Hr).
    exists (S (S n1)), v', st1. split_and!; try done. intros [|m] Hm; [lia|]. cbn [eval]. rewrite Hev1 by lia. cbn [rbind obind try_control fst snd].
    destruct m as [|m]; [lia|]. cbn [eval find_value]. by rewrite Hy, Hz, Hc.
  - (* dot call *)
    intros s E a r m args u vs b o c q v B B1 B2 B3 _ IH1 _ IH2 Hfo Ho Hpi _ IH3 G e' t fr sc st He (Hf1 & Hf2 & Hcl & Hfa) HG Hsc HF Hst.
    cbn [elab] in He. destruct (elab P1 (cls_of s) G a) as [[a' ta]| | |] eqn:Ha; cbn [rbind obind try_control fst snd] in He; try done.
    destruct ta as [[| |c0]|]; try done. destruct (rest P1 (cls_of s) c0 3 (r ++ [m])) as [[sr|]| | |]; cbn [rbind] in He; try done.
    destruct (each (elab P1 (cls_of s) G) args) as [l'| | |] eqn:Hl; cbn [rbind] in He; try done. bnd He. injection He as <- _.
    assert (sc = InFrame \/ closed a = true) as Hs1. { destruct Hsc as [->|Hc]; [by left|]. cbn in Hc. apply andb_true_iff in Hc as [? ?]. by right. }
    destruct (IH1 G a' _ fr sc st Ha Hf1 HG Hs1 HF Hst) as (n1 & w1 & st1 & Hev1 & Hr1 & Hst1 & K1).
    destruct (IH2 G l' fr (InValue w1) st1 Hl Hfa HG (or_intror Hcl) (rel_frame_keeps _ _ _ _ _ K1 HF) Hst1) as (n2 & ws & st2 & Hev2 & Hws & [Hh2 Ho2] & K2).
    destruct (method_in_picked _ _ b o (o_class o) 0 m (length args) c q Hh2 Ho (pos_here _) Hpi) as (pt & q' & Hme & Heq & Hrs).
    destruct (IH3 q' pt ws st2 Heq (picks_fine _ _ _ _ _ Hpi) Hrs Hws (conj Hh2 Ho2)) as (n3 & w & st3 & Hca & Hr & Hst3 & K3).
    assert (find_method L (s_heap st2) fr (InValue w1) (r ++ [m]) (length args) = Some (pt, q')) as Hfm.
    { unfold find_method. rewrite split_snoc. destruct r as [|n r].
      - inversion Hfo; subst. destruct w1; cbn in Hr1; try done. by subst.
      - rewrite removelast_last in Hf2.
        destruct (value_walk _ _ fr u w1 n r (BObj b) true 1 Hh2 Hr1 Hfo (fun _ => Hf2) ltac:(by right)) as (y & z & v' & Hy & Hz & Hc & Hrr).
        rewrite Hy, Hz. destruct v'; cbn in Hrr; try done. subst. by rewrite (method_at_object _ _ _ _ _ _ Hc). }
    exists (S (S (n1 + n2 + n3))), w, st3. split_and!; try done; [|by eapply keeps_trans; [|eapply keeps_trans]].
    intros [|n] Hn; [lia|]. cbn [eval]. rewrite Hev1 by lia. cbn [rbind obind try_control fst snd]. destruct n as [|n]; [lia|]. cbn [eval].
    rewrite Hev2 by lia. cbn [rbind obind try_control fst snd]. rewrite map_length.
    assert (length l' = length args) as ->. { apply each_forall, Forall2_length in Hl. done. }
    rewrite Hfm. cbn [fst snd]. by rewrite Hca by lia.
  - (* cast *)
    intros s E c a v B B1 _ IH G e' t fr sc st He Hf HG Hsc HF Hst. cbn [elab] in He. destruct (type_ok P1 (TObj c)); [|done].
    destruct (elab P1 (cls_of s) G a) as [[a' ta]| | |] eqn:Ha; cbn [rbind obind try_control fst snd] in He; try done. destruct ta as [[| |c0]|]; try done. injection He as <- _.
    destruct (IH G a' _ fr sc st Ha Hf HG Hsc HF Hst) as (n1 & w1 & st1 & Hev1 & Hr1 & Hst1 & K1).
    exists (S n1), w1, st1. split_and!; try done; try apply Hst1. intros [|n] Hn; [lia|]. cbn [eval]. apply Hev1. lia.
  - (* a part throws *)
    intros s E e v B B1 _ IH G e' t fr sc st He Hf HG Hsc HF Hst. destruct e as [z| |p|p l|c l|a b|a b|a p|a p l|c a]; cbn [parts] in IH.
    + destruct (IH G [] fr InFrame st eq_refl I HG (or_introl eq_refl) HF Hst) as (w & st' & Hs & _). inversion Hs.
    + destruct (IH G [] fr InFrame st eq_refl I HG (or_introl eq_refl) HF Hst) as (w & st' & Hs & _). inversion Hs.
    + destruct (IH G [] fr InFrame st eq_refl I HG (or_introl eq_refl) HF Hst) as (w & st' & Hs & _). inversion Hs.
    + cbn [elab] in He. destruct (name_of P1 (cls_of s) G p) as [[p' sr]| | |]; cbn [rbind] in He; try done.
      destruct (each (elab P1 (cls_of s) G) l) as [l'| | |] eqn:Hl; cbn [rbind] in He; try done. bnd He. injection He as <- _. destruct Hf as [_ Hf].
      destruct Hsc as [->|?]; [|done].
      destruct (IH G l' fr InFrame st Hl Hf HG (or_introl eq_refl) HF Hst) as (w & st' & [n0 Hs]%stops_list & Hr & Hst' & K).
      exists (S n0), w, st'. split_and!; try done; try apply Hst'. intros [|n] Hn; [lia|]. cbn [eval]. by rewrite Hs by lia.
    + cbn [elab] in He. destruct (each (elab P1 (cls_of s) G) l) as [l'| | |] eqn:Hl; cbn [rbind] in He; try done.
      destruct (bp_method P1 (depth P1) c w_new (length l)) as [q0|]; [|done]. destruct (takes_args q0 (map snd l')); [|done]. injection He as <- _.
      destruct (IH G l' fr sc st Hl Hf HG Hsc HF Hst) as (w & st' & [n0 Hs]%stops_list & Hr & Hst' & K).
      exists (S n0), w, st'. split_and!; try done; try apply Hst'. intros [|n] Hn; [lia|]. cbn [eval]. by rewrite Hs by lia.
    + cbn [elab] in He. destruct (elab P1 (cls_of s) G a) as [[a' ta]| | |] eqn:Ha; cbn [rbind] in He; try done.
      destruct (elab P1 (cls_of s) G b) as [[b' tb]| | |] eqn:Hb; cbn [rbind snd] in He; try done. case_bool_decide; [|done]. injection He as <- _. cbn [fst].
      destruct (IH G [(a', ta); (b', tb)] fr sc st) as (w & st' & Hs & Hr & Hst' & K); try done.
      { unfold each. by rewrite Ha; cbn [rbind]; rewrite Hb. }
      { by destruct Hf. }
      { destruct Hsc as [->|Hc]; [by left|right]. cbn in Hc |- *. by rewrite andb_true_r. }
      cbn [map fst] in Hs. apply stops_two in Hs as [[n0 Hs]|(n0 & u & st1 & Hs)].
      * exists (S n0), w, st'. split_and!; try done; try apply Hst'. intros [|n] Hn; [lia|]. cbn [eval]. by rewrite Hs by lia.
      * exists (S n0), w, st'. split_and!; try done; try apply Hst'. intros [|n] Hn; [lia|]. cbn [eval]. destruct (Hs n) as [-> H2]; [lia|]. cbn [obind snd]. by rewrite H2.
    + cbn [elab] in He. destruct (elab P1 (cls_of s) G a) as [[a' ta]| | |] eqn:Ha; cbn [rbind] in He; try done.
      destruct (elab P1 (cls_of s) G b) as [[b' tb]| | |] eqn:Hb; cbn [rbind snd] in He; try done. case_bool_decide; [|done]. injection He as <- _. cbn [fst].
      destruct (IH G [(a', ta); (b', tb)] fr sc st) as (w & st' & Hs & Hr & Hst' & K); try done.
      { unfold each. by rewrite Ha; cbn [rbind]; rewrite Hb. }
      { by destruct Hf. }
      { destruct Hsc as [->|Hc]; [by left|right]. cbn in Hc |- *. by rewrite andb_true_r. }
      cbn [map fst] in Hs. apply stops_two in Hs as [[n0 Hs]|(n0 & u & st1 & Hs)].
      * exists (S n0), w, st'. split_and!; try done; try apply Hst'. intros [|n] Hn; [lia|]. cbn [eval]. by rewrite Hs by lia.
      * exists (S n0), w, st'. split_and!; try done; try apply Hst'. intros [|n] Hn; [lia|]. cbn [eval]. destruct (Hs n) as [-> H2]; [lia|]. cbn [obind snd]. by rewrite H2.
    + cbn [elab] in He. destruct (elab P1 (cls_of s) G a) as [[a' ta]| | |] eqn:Ha; cbn [rbind fst snd] in He; try done.
      destruct ta as [[| |c]|]; try done. bnd He. destruct a0 as [[t0|]|]; try done. injection He as <- _. destruct Hf as [Hf _].
      destruct (IH G [(a', Some (TObj c))] fr sc st) as (w & st' & Hs & Hr & Hst' & K); try done.
      { unfold each. by rewrite Ha. }
      { destruct Hsc as [->|Hc]; [by left|right]. cbn in Hc |- *. by rewrite andb_true_r. }
      cbn [map fst] in Hs. apply stops_one in Hs as [n0 Hs].
      exists (S n0), w, st'. split_and!; try done; try apply Hst'. intros [|n] Hn; [lia|]. cbn [eval]. by rewrite Hs by lia.
    + cbn [elab] in He. destruct (elab P1 (cls_of s) G a) as [[a' ta]| | |] eqn:Ha; cbn [rbind fst snd] in He; try done.
      destruct ta as [[| |c0]|]; try done. destruct (rest P1 (cls_of s) c0 3 p) as [[sr|]| | |]; cbn [rbind] in He; try done.
      destruct (each (elab P1 (cls_of s) G) l) as [l'| | |] eqn:Hl; cbn [rbind] in He; try done. bnd He. injection He as <- _. destruct Hf as [Hf _].
      destruct (IH G [(a', Some (TObj c0))] fr sc st) as (w & st' & Hs & Hr & Hst' & K); try done.
      { unfold each. by rewrite Ha. }
      { destruct Hsc as [->|Hc]; [by left|right]. cbn in Hc |- *. apply andb_true_iff in Hc as [-> _]. done. }
      cbn [map fst] in Hs. apply stops_one in Hs as [n0 Hs].
      exists (S n0), w, st'. split_and!; try done; try apply Hst'. intros [|n] Hn; [lia|]. cbn [eval]. by rewrite Hs by lia.
    + cbn [elab] in He. destruct (type_ok P1 (TObj c)); [|done].
      destruct (elab P1 (cls_of s) G a) as [[a' ta]| | |] eqn:Ha; cbn [rbind fst snd] in He; try done. destruct ta as [[| |c0]|]; try done. injection He as <- _.
      destruct (IH G [(a', Some (TObj c0))] fr sc st) as (w & st' & Hs & Hr & Hst' & K); try done.
      { unfold each. by rewrite Ha. }
      { destruct Hsc as [->|Hc]; [by left|right]. cbn in Hc |- *. by rewrite andb_true_r. }
      cbn [map fst] in Hs. apply stops_one in Hs as [n0 Hs].
      exists (S n0), w, st'. split_and!; try done; try apply Hst'. intros [|n] Hn; [lia|]. cbn [eval]. by rewrite Hs by lia.
  - (* the method throws *)
    intros s E p args vs tq q v B B1 B2 _ IHa Ht _ IHc G e' t fr sc st He [[Hft Hkn] Hfa] HG Hsc HF Hst. destruct Hsc as [->|?]; [|done].
    cbn [elab] in He. destruct (name_of P1 (cls_of s) G p) as [[p' sr]| | |] eqn:Hn; cbn [rbind] in He; try done.
    destruct (each (elab P1 (cls_of s) G) args) as [l'| | |] eqn:Hl; cbn [rbind] in He; try done. cbn [fst snd] in He.
    destruct (called P1 (cls_of s) sr (map snd l')) as [t'| | |] eqn:Hc; cbn [rbind] in He; try done. injection He as <- _.
    destruct (IHa G l' fr InFrame st Hl Hfa HG (or_introl eq_refl) HF Hst) as (n1 & ws & st1 & Hev & Hws & [Hh1 Ho1] & K1).
    destruct (target_found _ _ s E fr G p p' sr _ tq q Hh1 (rel_frame_keeps _ _ _ _ _ K1 HF) Ht Hn ltac:(intros t0 ->; done) HG Hft Hkn) as (pt & q' & Hfm & Heq & Hrs & Hfq).
    destruct (IHc q' pt ws st1 Heq Hfq Hrs Hws (conj Hh1 Ho1)) as (n2 & g & st2 & Hbo & Hfl & Hst2 & K2). destruct g as [| | |w|w]; try done.
    exists (S (S (n1 + n2))), w, st2. split_and!; try done; [|by eapply keeps_trans].
    intros [|n] Hn'; [lia|]. cbn [eval]. rewrite Hev by lia. cbn [obind fst snd]. rewrite map_length.
    assert (length l' = length args) as ->. { apply each_forall, Forall2_length in Hl. done. }
    rewrite Hfm. cbn [fst snd]. destruct n as [|n]; [lia|]. cbn [call]. by rewrite Hbo by lia.
  - intros s E e l v B B1 _ IH1 G l' fr sc st Hl [Hf1 Hf2] HG Hsc HF Hst. cbn [each] in Hl. fold (each (elab P1 (cls_of s) G)) in Hl.
    destruct (elab P1 (cls_of s) G e) as [[e' te]| | |] eqn:He; cbn [rbind] in Hl; try done.
    destruct (each (elab P1 (cls_of s) G) l) as [l2| | |] eqn:Hl2; cbn [rbind] in Hl; try done. injection Hl as <-.
    assert (sc = InFrame \/ closed e = true) as Hs1.
    { destruct Hsc as [->|Hc]; [by left|]. cbn in Hc. apply andb_true_iff in Hc as [? ?]. by right. }
    destruct (IH1 G e' te fr sc st He Hf1 HG Hs1 HF Hst) as (n1 & w1 & st1 & Hev1 & Hr1 & Hst1 & K1).
    exists w1, st1. split_and!; try done; try apply Hst1. by eapply stops_here.
  - intros s E e l u v B B1 B2 _ IH1 _ IH2 G l' fr sc st Hl [Hf1 Hf2] HG Hsc HF Hst. cbn [each] in Hl. fold (each (elab P1 (cls_of s) G)) in Hl.
    destruct (elab P1 (cls_of s) G e) as [[e' te]| | |] eqn:He; cbn [rbind] in Hl; try done.
    destruct (each (elab P1 (cls_of s) G) l) as [l2| | |] eqn:Hl2; cbn [rbind] in Hl; try done. injection Hl as <-.
    assert ((sc = InFrame \/ closed e = true) /\ (sc = InFrame \/ forallb closed l = true)) as [Hs1 Hs2].
    { destruct Hsc as [->|Hc]; [by split; left|]. cbn in Hc. apply andb_true_iff in Hc as [? ?]. by split; right. }
    destruct (IH1 G e' te fr sc st He Hf1 HG Hs1 HF Hst) as (n1 & w1 & st1 & Hev1 & Hr1 & Hst1 & K1).
    destruct (IH2 G l2 fr sc st1 Hl2 Hf2 HG Hs2 (rel_frame_keeps _ _ _ _ _ K1 HF) Hst1) as (w & st2 & Hs & Hr & Hst2 & K2).
    exists w, st2. split_and!; try done; try apply Hst2; [|by eapply keeps_trans]. by eapply stops_later.
  - (* arguments *)
    intros s E B G l' fr sc st Hl _ _ _ _ Hst. injection Hl as <-. exists 1, [], st. split_and!; try done; [|apply keeps_refl].
    intros [|n] Hn; [lia|done].
  - intros s E e l v vs B B1 B2 _ IH1 _ IH2 G l' fr sc st Hl [Hf1 Hf2] HG Hsc HF Hst. cbn [each] in Hl. fold (each (elab P1 (cls_of s) G)) in Hl.
    destruct (elab P1 (cls_of s) G e) as [[e' te]| | |] eqn:He; cbn [rbind] in Hl; try done.
    destruct (each (elab P1 (cls_of s) G) l) as [l2| | |] eqn:Hl2; cbn [rbind] in Hl; try done. injection Hl as <-.
    assert ((sc = InFrame \/ closed e = true) /\ (sc = InFrame \/ forallb closed l = true)) as [Hs1 Hs2].
    { destruct Hsc as [->|Hc]; [by split; left|]. cbn in Hc. apply andb_true_iff in Hc as [? ?]. by split; right. }
    destruct (IH1 G e' te fr sc st He Hf1 HG Hs1 HF Hst) as (n1 & w1 & st1 & Hev1 & Hr1 & Hst1 & K1).
    destruct (IH2 G l2 fr sc st1 Hl2 Hf2 HG Hs2 (rel_frame_keeps _ _ _ _ _ K1 HF) Hst1) as (n2 & ws & st2 & Hev2 & Hws & Hst2 & K2).
    exists (S (n1 + n2)), (w1 :: ws), st2. split_and!; try done; [|by constructor|by eapply keeps_trans].
    intros [|n] Hn; [lia|]. cbn [eval_list map fst]. rewrite Hev1 by lia. cbn [rbind obind try_control fst snd]. by rewrite Hev2 by lia.
  - (* body *)
    intros s q vs E f B B1 _ IH q' pt ws st He [Hfp Hfb] Hrs Hws Hst. unfold elab_method in He. destruct (controlled q); cbn [negb] in He; [|done].
    destruct (elab_list P1 (cls_of s) (m_ret q) [map (fun x => (snd x, fst x)) (m_params q)] (m_body q)) as [[l' G']| | |] eqn:Hl; cbn [rbind] in He; try done.
    injection He as <-. cbn [fst].
    destruct (IH _ _ l' G' (Frame [pass (m_params q) ws] pt pt) st Hl Hfb) as (n1 & g & fr' & st1 & Hex & Hfl & _ & Hst1 & K1).
    + cbn [slook]. destruct (get w_this (map (fun x => (snd x, fst x)) (m_params q))) as [t|] eqn:Hg; [|done]. exfalso.
      assert (In w_this (map fst (map (fun x : ty * str => (snd x, fst x)) (m_params q)))) as Hin by (apply get_in; by exists t).
      rewrite map_map in Hin. cbn in Hin. rewrite Forall_forall in Hfp. destruct (Hfp w_this) as [? _]; [|done]. by apply elem_of_list_In.
    + split_and!; try done.
      * cbn. constructor; [by apply params_rel|constructor].
      * intros m x v Hm%elem_of_list_singleton Hx. subst m. by eapply params_fine.
    + done.
    + exists (S n1), g, st1. split_and!; try done. intros [|n] Hn; [lia|]. cbn [body m_params m_body]. by rewrite Hex by lia.
  - (* value *)
    intros s q vs v B B1 _ IH q' pt ws st He Hf Hrs Hws Hst. destruct (IH q' pt ws st He Hf Hrs Hws Hst) as (n1 & g & st1 & Hb & Hfl & Hst1 & K1).
    destruct g as [| | |w|w]; try done. exists (S n1), w, st1. split_and!; try done. intros [|n] Hn; [lia|]. cbn [call]. by rewrite Hb by lia.
  - intros s q vs B B1 _ _ IH q' pt ws st He Hf Hrs Hws Hst. destruct (IH q' pt ws st He Hf Hrs Hws Hst) as (n1 & g & st1 & Hb & Hfl & Hst1 & K1).
    destruct g as [| | |w|w]; try done. exists (S n1), VVoid, st1. split_and!; try done. intros [|n] Hn; [lia|]. cbn [call]. by rewrite Hb by lia.
  - (* statements *)
    intros s E B void G l' G' fr st Hl _ _ HF Hst. injection Hl as <- _. exists 1, Go, fr, st. split_and!; try done; try apply HF; try apply keeps_refl.
    intros [|n] Hn; [lia|done].
  - intros s E E1 E2 x l f B B1 B2 _ IH1 _ IH2 void G l' G' fr st Hl Hf HG HF Hst. cbn [elab_list] in Hl.
    destruct (elab_stmt P1 (cls_of s) void G x) as [[x' G1]| | |] eqn:Hx; cbn [rbind obind try_control fst snd] in Hl; try done.
    destruct (elab_list P1 (cls_of s) void G1 l) as [[l2 G2]| | |] eqn:Hl2; cbn [rbind obind try_control fst snd] in Hl; try done. injection Hl as <- _.
    apply Forall_cons in Hf as [Hf1 Hf2].
    destruct (IH1 void G x' G1 fr st Hx Hf1 HG HF Hst) as (n1 & g1 & fr1 & st1 & Hex1 & Hfl1 & HF1 & Hst1 & K1). destruct g1; try done.
    destruct (IH2 void G1 l2 G2 fr1 st1 Hl2 Hf2 (elab_this _ _ _ _ _ _ Hx Hf1 HG) HF1 Hst1) as (n2 & g2 & fr2 & st2 & Hex2 & Hfl2 & HF2 & Hst2 & K2).
    exists (S (n1 + n2)), g2, fr2, st2. split_and!; try done; try apply HF2; [|by eapply keeps_trans].
    intros [|n] Hn; [lia|]. cbn [exec_list]. rewrite Hex1 by lia. cbn [rbind obind try_control fst snd]. by rewrite Hex2 by lia.
  - intros s E E1 x l f B B1 Hgo _ IH1 void G l' G' fr st Hl Hf HG HF Hst. cbn [elab_list] in Hl.
    destruct (elab_stmt P1 (cls_of s) void G x) as [[x' G1]| | |] eqn:Hx; cbn [rbind obind try_control fst snd] in Hl; try done.
    destruct (elab_list P1 (cls_of s) void G1 l) as [[l2 G2]| | |] eqn:Hl2; cbn [rbind obind try_control fst snd] in Hl; try done. injection Hl as <- _.
    apply Forall_cons in Hf as [Hf1 Hf2].
    destruct (IH1 void G x' G1 fr st Hx Hf1 HG HF Hst) as (n1 & g1 & fr1 & st1 & Hex1 & Hfl1 & HF1 & Hst1 & K1). 
    exists (S n1), g1, fr1, st1. split_and!; try done; try apply HF1.
    intros [|n] Hn; [lia|]. cbn [exec_list]. rewrite Hex1 by lia. by destruct f, g1.
  - (* declaration *)
    intros s m E t x e v v1 B B1 Hm _ IH Htk void G x' G' fr st Hx [Hf1 Hf2] HG HF Hst. cbn [elab_stmt] in Hx. destruct G as [|bl G]; [done|].
    destruct (get x bl); [done|]. destruct (type_ok P1 t); [|done].
    destruct (elab P1 (cls_of s) (((x, t) :: bl) :: G) e) as [[e' te]| | |] eqn:He; cbn [rbind obind try_control fst snd] in Hx; try done.
    destruct (can_init P1 t te); [|done]. injection Hx as <- _.
    pose proof HF as (Hvars & Hloc & Hth & Hself). destruct fr as [V th ho]. cbn [fr_vars fr_this fr_home] in *.
    inversion Hvars as [|m' b E' V' Hbl Hvars']; subst.
    set (fresh0 := match t with TInt => VInt 0 | TBool => VBool false | TObj c => VNull PGlobal c end).
    assert (forall u w, rel u w -> rel_block (upd m x u) ((x, w) :: b)) as Hblock.
    { intros u w Hr y. rewrite get_cons. unfold upd. destruct (decide (y = x)) as [->|Hne].
      - by rewrite bool_decide_eq_true_2, str_eqb_refl.
      - rewrite bool_decide_eq_false_2 by done. rewrite (proj2 (str_eqb_false _ _)) by congruence. apply Hbl. }
    assert (forall u m0 y w0, m0 ∈ upd m x u :: E -> m0 y = Some w0 -> fine_local P (cls_of s) y) as Hfl.
    { intros u m0 y w0 [->|Hin]%elem_of_cons Hy.
      - unfold upd in Hy. case_bool_decide as Hb; [by subst|]. eapply Hloc; [by left|done].
      - eapply Hloc; [by right|done]. }
    destruct (IH _ e' te (Frame (((x, fresh0) :: b) :: V') ho ho) InFrame st He Hf2) as (n1 & w & st1 & Hev & Hr & Hst1 & K1); [|by left| |done|].
    + cbn [slook] in *. rewrite get_cons. destruct Hf1 as (Hx & _). by rewrite (proj2 (str_eqb_false x w_this) Hx).
    + split_and!; try done; [|by eapply Hfl]. cbn. constructor; [|done]. apply Hblock. by destruct t.
    + assert (rel (start t) fresh0) as Hr0 by (by destruct t). destruct (rel_assigned _ _ _ _ _ _ _ (proj1 Hst1) Htk Hr0 Hr) as (w1 & Has & Hr1).
      exists (S n1), Go, (Frame (((x, w1) :: b) :: V') ho ho), st1. split_and!; try done.
      * intros [|n] Hn; [lia|]. cbn [exec fr_vars]. assert (get x b = None) as ->. { specialize (Hbl x). rewrite Hm in Hbl. by destruct (get x b). }
        cbn [fr_this fr_home]. fold fresh0. rewrite Hev by lia. cbn [rbind obind try_control fst snd]. by rewrite Has.
      * split_and!; try done; [|by eapply Hfl|by eapply rel_self_keeps]. cbn. constructor; [|done]. by apply Hblock.
  - (* assignment *)
    intros s E E1 p e pl v H B B1 Hloc _ IH Hsto void G x' G' fr st Hx ((Hf1 & Hkn) & Hf2 & Hf3) HG HF Hst. cbn [elab_stmt] in Hx.
    destruct (name_of P1 (cls_of s) G p) as [[p' sr]| | |] eqn:Hn; cbn [rbind obind try_control fst snd] in Hx; try done. destruct sr as [tl|]; [|done].
    destruct (elab P1 (cls_of s) G e) as [[e' te]| | |] eqn:He; cbn [rbind obind try_control fst snd] in Hx; try done. destruct (can_assign tl te); [|done]. injection Hx as <- _.
    destruct (place_found _ _ s E fr G p p' _ pl (proj1 Hst) HF Hloc Hn HG Hf1 Hkn) as (z & Hz & Hrp).
    destruct (IH G e' te fr InFrame st He Hf3 HG (or_introl eq_refl) HF Hst) as (n1 & w & st1 & Hev & Hr & [Hh1 Ho1] & K1).
    destruct (store_ok s E _ E1 H B1 st1 fr pl z v w Hsto (rel_place_keeps _ _ _ _ K1 Hrp) (rel_frame_keeps _ _ _ _ _ K1 HF) Hh1 Ho1 Hr) as (st2 & fr2 & Hs2 & Hst2 & HF2 & K2).
    exists (S n1), Go, fr2, st2. split_and!; try done; try apply HF2; try apply Hst2; [|by eapply keeps_trans].
    intros [|n] Hn'; [lia|]. cbn [exec]. rewrite Hz. rewrite Hev by lia. cbn [rbind obind try_control fst snd]. by rewrite Hs2.
  - (* print *)
    intros s E e z B B1 _ IH void G x' G' fr st Hx Hf HG HF Hst. cbn [elab_stmt] in Hx.
    destruct (elab P1 (cls_of s) G e) as [[e' te]| | |] eqn:He; cbn [rbind fst] in Hx; try done. injection Hx as <- _.
    destruct (IH G e' te fr InFrame st He Hf HG (or_introl eq_refl) HF Hst) as (n1 & w & st1 & Hev & Hr & [Hh1 Ho1] & K1). destruct w; cbn in Hr; try done. subst z0.
    exists (S n1), Go, fr, (State (s_heap st1) (s_out st1 ++ [z])). pose proof (rel_frame_keeps _ _ _ _ _ K1 HF) as HF1.
    split_and!; try done; try apply HF1; [|cbn; by rewrite Ho1].
    intros [|n] Hn'; [lia|]. cbn [exec]. rewrite Hev by lia. done.
  - (* expression *)
    intros s E e v B B1 _ IH void G x' G' fr st Hx Hf HG HF Hst. cbn [elab_stmt] in Hx.
    destruct (elab P1 (cls_of s) G e) as [[e' te]| | |] eqn:He; cbn [rbind fst] in Hx; try done. injection Hx as <- _.
    destruct (IH G e' te fr InFrame st He Hf HG (or_introl eq_refl) HF Hst) as (n1 & w & st1 & Hev & Hr & Hst1 & K1).
    pose proof (rel_frame_keeps _ _ _ _ _ K1 HF) as HF1. exists (S n1), Go, fr, st1. split_and!; try done; try apply HF1; try apply Hst1.
    intros [|n] Hn'; [lia|]. cbn [exec]. rewrite Hev by lia. done.
  - (* return *)
    intros s E e v B B1 _ IH void G x' G' fr st Hx Hf HG HF Hst. cbn [elab_stmt] in Hx.
    destruct (elab P1 (cls_of s) G e) as [[e' te]| | |] eqn:He; cbn [rbind obind try_control fst snd] in Hx; try done. case_bool_decide; [|done]. injection Hx as <- _.
    destruct (IH G e' te fr InFrame st He Hf HG (or_introl eq_refl) HF Hst) as (n1 & w & st1 & Hev & Hr & Hst1 & K1).
    pose proof (rel_frame_keeps _ _ _ _ _ K1 HF) as HF1. exists (S n1), (Ret w), fr, st1. split_and!; try done; try apply HF1; try apply Hst1.
    intros [|n] Hn'; [lia|]. cbn [exec]. rewrite Hev by lia. done.
  - intros s E B void G x' G' fr st Hx _ HG HF Hst. cbn [elab_stmt] in Hx. case_bool_decide; [|done]. injection Hx as <- _.
    exists 1, (Ret VVoid), fr, st. split_and!; try done; try apply HF; try apply Hst; [|apply keeps_refl]. intros [|n] Hn; [lia|done].
  - (* if *)
    intros s E E1 e x y v b f B B1 B2 _ IH1 Hb _ IH2 void G x' G' fr st Hx (Hf1 & Hf2 & Hf3) HG HF Hst. cbn [elab_stmt] in Hx.
    destruct (elab P1 (cls_of s) G e) as [[e' te]| | |] eqn:He; cbn [rbind fst] in Hx; try done.
    destruct (elab_stmt P1 (cls_of s) void G x) as [[xa Ga]| | |] eqn:Ha; cbn [rbind obind try_control fst snd] in Hx; try done.
    destruct (elab_stmt P1 (cls_of s) void Ga y) as [[yb Gb]| | |] eqn:Hbb; cbn [rbind obind try_control fst snd] in Hx; try done. injection Hx as <- _.
    destruct (IH1 G e' te fr InFrame st He Hf1 HG (or_introl eq_refl) HF Hst) as (n1 & w & st1 & Hev & Hr & Hst1 & K1).
    pose proof (rel_frame_keeps _ _ _ _ _ K1 HF) as HF1.
    assert (exists Gi Gi', elab_stmt P1 (cls_of s) void Gi (if b then x else y) = Ok (if b then xa else yb, Gi') /\ fine_stmt P (cls_of s) (if b then x else y) /\ slook Gi w_this = None) as (Gi & Gi' & Hi1 & Hi2 & Hi3).
    { destruct b; [by exists G, Ga|]. exists Ga, Gb. split_and!; try done. by eapply (elab_this _ x). }
    destruct (IH2 void Gi _ Gi' fr st1 Hi1 Hi2 Hi3 HF1 Hst1) as (n2 & g & fr2 & st2 & Hex & Hfl & HF2 & Hst2 & K2).
    exists (S (n1 + n2)), g, fr2, st2. split_and!; try done; try apply HF2; try apply Hst2; [|by eapply keeps_trans].
    intros [|n] Hn'; [lia|]. cbn [exec]. rewrite Hev by lia. cbn [rbind obind try_control fst snd]. rewrite (rel_true _ _ _ Hb Hr). apply Hex. lia.
  - (* block *)
    intros s E m E1 l f B B1 _ IH void G x' G' fr st Hx Hf HG HF Hst. rewrite elab_block_eq in Hx.
    destruct (elab_list P1 (cls_of s) void ([] :: G) l) as [[l' G1]| | |] eqn:Hl; cbn [rbind fst] in Hx; try done. injection Hx as <- _.
    pose proof HF as (Hvars & Hloc & Hth & Hself).
    assert (Forall (fine_stmt P (cls_of s)) l) as Hfl.
    { cbn in Hf. clear -Hf. induction l as [|a l IH]; [constructor|]. destruct Hf as [H1 H2]. constructor; [done|]. by apply IH. }
    destruct (IH void ([] :: G) l' G1 (Frame ([] :: fr_vars fr) (fr_this fr) (fr_home fr)) st Hl Hfl) as (n1 & g & fr2 & st2 & Hex & Hflow & (Hv2 & Hl2 & Ht2 & Hs2) & Hst2 & K2); [done| |done|].
    { split_and!; try done.
      - cbn. constructor; [|done]. by intros y.
      - intros m0 y u [->|Hin]%elem_of_cons Hy; [done|]. by eapply Hloc. }
    inversion Hv2 as [|m' b E' V' Hbl Hvars' Heq1 Heq2]; subst.
    exists (S n1), g, (Frame (tail (fr_vars fr2)) (fr_this fr) (fr_home fr)), st2. split_and!; try done; try apply Hst2.
    + intros [|n] Hn'; [lia|]. cbn [exec]. rewrite Hex by lia. done.
    + split_and!; try done.
      * cbn [fr_vars]. by rewrite <- Heq2.
      * intros m0 y u Hin Hy. eapply Hl2; [by right|done].
      * cbn [fr_home]. by eapply rel_self_keeps.
  - (* while: the end *)
    intros s E e l v B B1 _ IH Hb void G x' G' fr st Hx [Hf1 Hf2] HG HF Hst. rewrite elab_while_eq in Hx.
    destruct (elab P1 (cls_of s) G e) as [[e' te]| | |] eqn:He; cbn [rbind fst] in Hx; try done.
    destruct (elab_stmt P1 (cls_of s) void G (SBlock l)) as [[bl Gb]| | |]; cbn [rbind fst] in Hx; try done. destruct bl; try done. injection Hx as <- _.
    destruct (IH G e' te fr InFrame st He Hf1 HG (or_introl eq_refl) HF Hst) as (n1 & w & st1 & Hev & Hr & Hst1 & K1).
    pose proof (rel_frame_keeps _ _ _ _ _ K1 HF) as HF1. exists (S n1), Go, fr, st1. split_and!; try done; try apply HF1; try apply Hst1.
    intros [|n] Hn'; [lia|]. cbn [exec]. rewrite Hev by lia. cbn [rbind obind try_control fst snd]. by rewrite (rel_true _ _ _ Hb Hr).
  - (* while: one more turn *)
    intros s E E1 E2 e l v f g B B1 B2 B3 _ IH1 Hb _ IH2 Hgo _ IH3 void G x' G' fr st Hx [Hf1 Hf2] HG HF Hst. pose proof Hx as Hx'. rewrite elab_while_eq in Hx.
    destruct (elab P1 (cls_of s) G e) as [[e' te]| | |] eqn:He; cbn [rbind fst] in Hx; try done.
    destruct (elab_stmt P1 (cls_of s) void G (SBlock l)) as [[bl Gb]| | |] eqn:Hl; cbn [rbind fst] in Hx; try done.
    destruct bl as [| | | | | |l'| | | | | |]; try done. injection Hx as Hx _.
    destruct (IH1 G e' te fr InFrame st He Hf1 HG (or_introl eq_refl) HF Hst) as (n1 & w & st1 & Hev & Hr & Hst1 & K1).
    pose proof (rel_frame_keeps _ _ _ _ _ K1 HF) as HF1.
    destruct (IH2 void G _ Gb fr st1 Hl Hf2 HG HF1 Hst1) as (n2 & g2 & fr2 & st2 & Hex2 & Hfl2 & HF2 & Hst2 & K2).
    destruct (IH3 void G x' G' fr2 st2 Hx' (conj Hf1 Hf2) HG HF2 Hst2) as (n3 & g3 & fr3 & st3 & Hex3 & Hfl3 & HF3 & Hst3 & K3).
    exists (S (n1 + n2 + n3)), g3, fr3, st3. split_and!; try done; try apply HF3; try apply Hst3; [|eapply keeps_trans; [exact K1|by eapply keeps_trans]].
    intros [|n] Hn'; [lia|]. subst x'. cbn [exec]. rewrite Hev by lia. cbn [rbind obind try_control fst snd]. rewrite (rel_true _ _ _ Hb Hr).
    rewrite Hex2 by lia. cbn [rbind obind try_control fst snd]. rewrite Hex3 by lia. destruct Hgo as [-> | ->], g2; done.
  - (* while: break *)
    intros s E E1 e l v B B1 B2 _ IH1 Hb _ IH2 void G x' G' fr st Hx [Hf1 Hf2] HG HF Hst. rewrite elab_while_eq in Hx.
    destruct (elab P1 (cls_of s) G e) as [[e' te]| | |] eqn:He; cbn [rbind fst] in Hx; try done.
    destruct (elab_stmt P1 (cls_of s) void G (SBlock l)) as [[bl Gb]| | |] eqn:Hl; cbn [rbind fst] in Hx; try done.
    destruct bl as [| | | | | |l'| | | | | |]; try done. injection Hx as Hx _.
    destruct (IH1 G e' te fr InFrame st He Hf1 HG (or_introl eq_refl) HF Hst) as (n1 & w & st1 & Hev & Hr & Hst1 & K1).
    pose proof (rel_frame_keeps _ _ _ _ _ K1 HF) as HF1.
    destruct (IH2 void G _ Gb fr st1 Hl Hf2 HG HF1 Hst1) as (n2 & g2 & fr2 & st2 & Hex2 & Hfl2 & HF2 & Hst2 & K2).
    exists (S (n1 + n2)), Go, fr2, st2. split_and!; try done; try apply HF2; try apply Hst2; [|by eapply keeps_trans].
    intros [|n] Hn'; [lia|]. subst x'. cbn [exec]. rewrite Hev by lia. cbn [rbind obind try_control fst snd]. rewrite (rel_true _ _ _ Hb Hr).
    rewrite Hex2 by lia. cbn [rbind obind try_control fst snd]. by destruct g2.
  - (* while: return *)
    intros s E E1 e l v r B B1 B2 _ IH1 Hb _ IH2 void G x' G' fr st Hx [Hf1 Hf2] HG HF Hst. rewrite elab_while_eq in Hx.
    destruct (elab P1 (cls_of s) G e) as [[e' te]| | |] eqn:He; cbn [rbind fst] in Hx; try done.
    destruct (elab_stmt P1 (cls_of s) void G (SBlock l)) as [[bl Gb]| | |] eqn:Hl; cbn [rbind fst] in Hx; try done.
    destruct bl as [| | | | | |l'| | | | | |]; try done. injection Hx as Hx _.
    destruct (IH1 G e' te fr InFrame st He Hf1 HG (or_introl eq_refl) HF Hst) as (n1 & w & st1 & Hev & Hr & Hst1 & K1).
    pose proof (rel_frame_keeps _ _ _ _ _ K1 HF) as HF1.
    destruct (IH2 void G _ Gb fr st1 Hl Hf2 HG HF1 Hst1) as (n2 & g2 & fr2 & st2 & Hex2 & Hfl2 & HF2 & Hst2 & K2).
    exists (S (n1 + n2)), g2, fr2, st2. split_and!; try done; try apply HF2; try apply Hst2; [|by eapply keeps_trans].
    intros [|n] Hn'; [lia|]. subst x'. cbn [exec]. rewrite Hev by lia. cbn [rbind obind try_control fst snd]. rewrite (rel_true _ _ _ Hb Hr).
    rewrite Hex2 by lia. cbn [rbind obind try_control fst snd]. by destruct g2.
  - (* while: exception *)
    intros s E E1 e l v r B B1 B2 _ IH1 Hb _ IH2 void G x' G' fr st Hx [Hf1 Hf2] HG HF Hst. rewrite elab_while_eq in Hx.
    destruct (elab P1 (cls_of s) G e) as [[e' te]| | |] eqn:He; cbn [rbind fst] in Hx; try done.
    destruct (elab_stmt P1 (cls_of s) void G (SBlock l)) as [[bl Gb]| | |] eqn:Hl; cbn [rbind fst] in Hx; try done.
    destruct bl as [| | | | | |l'| | | | | |]; try done. injection Hx as Hx _.
    destruct (IH1 G e' te fr InFrame st He Hf1 HG (or_introl eq_refl) HF Hst) as (n1 & w & st1 & Hev & Hr & Hst1 & K1).
    pose proof (rel_frame_keeps _ _ _ _ _ K1 HF) as HF1.
    destruct (IH2 void G _ Gb fr st1 Hl Hf2 HG HF1 Hst1) as (n2 & g2 & fr2 & st2 & Hex2 & Hfl2 & HF2 & Hst2 & K2).
    exists (S (n1 + n2)), g2, fr2, st2. split_and!; try done; try apply HF2; try apply Hst2; [|by eapply keeps_trans].
    intros [|n] Hn'; [lia|]. subst x'. cbn [exec]. rewrite Hev by lia. cbn [rbind obind try_control fst snd]. rewrite (rel_true _ _ _ Hb Hr).
    rewrite Hex2 by lia. cbn [rbind obind try_control fst snd]. by destruct g2.
  - (* throw *)
    intros s E e a B B1 _ IH void G x' G' fr st Hx Hf HG HF Hst. cbn [elab_stmt] in Hx.
    destruct (elab P1 (cls_of s) G e) as [[e' te]| | |] eqn:He; cbn [rbind fst] in Hx; try done. injection Hx as <- _.
    destruct (IH G e' te fr InFrame st He Hf HG (or_introl eq_refl) HF Hst) as (n1 & w & st1 & Hev & Hr & Hst1 & K1). destruct w; cbn in Hr; try done. subst a0.
    pose proof (rel_frame_keeps _ _ _ _ _ K1 HF) as HF1. exists (S n1), (Thr (VObj a)), fr, st1. split_and!; try done; try apply HF1; try apply Hst1.
    intros [|n] Hn'; [lia|]. cbn [exec]. rewrite Hev by lia. done.
  - (* an expression throws *)
    intros s E x e v B B1 Ha _ IH void G x' G' fr st Hx Hf HG HF Hst.
    assert (exists e' te, elab P1 (cls_of s) G e = Ok (e', te) /\ fine_expr P (cls_of s) e /\
      forall n w st', eval n L fr InFrame e' st = Ok (Exn w st') -> exec (S n) L fr x' st = Ok (Thr w, fr, st')) as (e' & te & He & Hfe & Hgo).
    { destruct Ha as [e|e|e|e|e a b|e l].
      - cbn [elab_stmt] in Hx. bnd Hx. injection Hx as <- _. destruct a as [e' te]. exists e', te. split_and!; try done. intros n w st' Hn. cbn [exec fst]. by rewrite Hn.
      - cbn [elab_stmt] in Hx. bnd Hx. injection Hx as <- _. destruct a as [e' te]. exists e', te. split_and!; try done. intros n w st' Hn. cbn [exec fst]. by rewrite Hn.
      - cbn [elab_stmt] in Hx. bnd Hx. case_bool_decide; [|done]. injection Hx as <- _. destruct a as [e' te]. exists e', te. split_and!; try done. intros n w st' Hn. cbn [exec fst]. by rewrite Hn.
      - cbn [elab_stmt] in Hx. bnd Hx. injection Hx as <- _. destruct a as [e' te]. exists e', te. split_and!; try done. intros n w st' Hn. cbn [exec fst]. by rewrite Hn.
      - cbn [elab_stmt] in Hx. bnd Hx. bnd Hx. bnd Hx. injection Hx as <- _. destruct a0 as [e' te]. exists e', te. split_and!; try done; [by destruct Hf|]. intros n w st' Hn. cbn [exec fst]. by rewrite Hn.
      - rewrite elab_while_eq in Hx. bnd Hx. destruct (elab_stmt P1 (cls_of s) void G (SBlock l)) as [[bl Gb]| | |]; cbn [rbind fst] in Hx; try done.
        destruct bl; try done. injection Hx as <- _. destruct a as [e' te]. exists e', te. split_and!; try done; [by destruct Hf|]. intros n w st' Hn. cbn [exec fst]. by rewrite Hn. }
    destruct (IH G e' te fr InFrame st He Hfe HG (or_introl eq_refl) HF Hst) as (n1 & w & st1 & Hev & Hr & Hst1 & K1).
    pose proof (rel_frame_keeps _ _ _ _ _ K1 HF) as HF1. exists (S n1), (Thr w), fr, st1. split_and!; try done; try apply HF1; try apply Hst1.
    intros [|n] Hn'; [lia|]. apply Hgo, Hev. lia.
  - (* declaration: the value throws *)
    intros s m E t x e v B B1 Hm _ IH void G x' G' fr st Hx [Hf1 Hf2] HG HF Hst. cbn [elab_stmt] in Hx. destruct G as [|bl G]; [done|].
    destruct (get x bl); [done|]. destruct (type_ok P1 t); [|done].
    destruct (elab P1 (cls_of s) (((x, t) :: bl) :: G) e) as [[e' te]| | |] eqn:He; cbn [rbind fst snd] in Hx; try done.
    destruct (can_init P1 t te); [|done]. injection Hx as <- _.
    pose proof HF as (Hvars & Hloc & Hth & Hself). destruct fr as [V th ho]. cbn [fr_vars fr_this fr_home] in *.
    inversion Hvars as [|m' b E' V' Hbl Hvars']; subst.
    set (fresh0 := match t with TInt => VInt 0 | TBool => VBool false | TObj c => VNull PGlobal c end).
    assert (rel_block (upd m x (start t)) ((x, fresh0) :: b)) as Hblock.
    { intros y. rewrite get_cons. unfold upd. destruct (decide (y = x)) as [->|Hne].
      - rewrite bool_decide_eq_true_2, str_eqb_refl by done. by destruct t.
      - rewrite bool_decide_eq_false_2 by done. rewrite (proj2 (str_eqb_false _ _)) by congruence. apply Hbl. }
    assert (forall m0 y w0, m0 ∈ upd m x (start t) :: E -> m0 y = Some w0 -> fine_local P (cls_of s) y) as Hfl.
    { intros m0 y w0 [->|Hin]%elem_of_cons Hy.
      - unfold upd in Hy. case_bool_decide as Hb; [by subst|]. eapply Hloc; [by left|done].
      - eapply Hloc; [by right|done]. }
    destruct (IH _ e' te (Frame (((x, fresh0) :: b) :: V') ho ho) InFrame st He Hf2) as (n1 & w & st1 & Hev & Hr & Hst1 & K1); [|by left| |done|].
    + cbn [slook] in *. rewrite get_cons. destruct Hf1 as (Hx & _). by rewrite (proj2 (str_eqb_false x w_this) Hx).
    + split_and!; try done. cbn. constructor; done.
    + exists (S n1), (Thr w), (Frame (((x, fresh0) :: b) :: V') ho ho), st1. split_and!; try done.
      * intros [|n] Hn; [lia|]. cbn [exec fr_vars]. assert (get x b = None) as ->. { specialize (Hbl x). rewrite Hm in Hbl. by destruct (get x b). }
        cbn [fr_this fr_home]. fold fresh0. by rewrite Hev by lia.
      * split_and!; try done; [|by eapply rel_self_keeps]. cbn. constructor; done.
  - (* assignment: the value throws *)
    intros s E p e pl v B B1 Hloc _ IH void G x' G' fr st Hx ((Hf1 & Hkn) & Hf2 & Hf3) HG HF Hst. cbn [elab_stmt] in Hx.
    destruct (name_of P1 (cls_of s) G p) as [[p' sr]| | |] eqn:Hn; cbn [rbind fst snd] in Hx; try done. destruct sr as [tl|]; [|done].
    destruct (elab P1 (cls_of s) G e) as [[e' te]| | |] eqn:He; cbn [rbind fst snd] in Hx; try done. destruct (can_assign tl te); [|done]. injection Hx as <- _.
    destruct (place_found _ _ s E fr G p p' _ pl (proj1 Hst) HF Hloc Hn HG Hf1 Hkn) as (z & Hz & Hrp).
    destruct (IH G e' te fr InFrame st He Hf3 HG (or_introl eq_refl) HF Hst) as (n1 & w & st1 & Hev & Hr & Hst1 & K1).
    pose proof (rel_frame_keeps _ _ _ _ _ K1 HF) as HF1.
    exists (S n1), (Thr w), fr, st1. split_and!; try done; try apply HF1; try apply Hst1.
    intros [|n] Hn'; [lia|]. cbn [exec]. rewrite Hz. by rewrite Hev by lia.
  - (* try: no exception *)
    intros s E E1 a ks f B B1 Hno _ IH void G x' G' fr st Hx [Hf _] HG HF Hst. rewrite elab_try_eq in Hx.
    destruct (elab_stmt P1 (cls_of s) void G a) as [[a' Ga]| | |] eqn:Ha; cbn [rbind fst] in Hx; try done. bnd Hx. injection Hx as <- _.
    destruct (IH void G a' Ga fr st Ha Hf HG HF Hst) as (n1 & g & fr1 & st1 & Hex & Hfl & HF1 & Hst1 & K1).
    exists (S n1), g, fr1, st1. split_and!; try done; try apply HF1; try apply Hst1.
    intros [|n] Hn'; [lia|]. cbn [exec]. rewrite Hex by lia. cbn [rbind fst snd]. destruct g; try done. destruct f; try done. by destruct (Hno v0).
  - (* try: caught *)
    intros s E E1 E2 m a k1 c x b k2 i o f B B1 B2 _ IH1 Ho Hk1 Hc _ IH2 void G x' G' fr st Hx [Hfa Hfk] HG HF Hst. rewrite elab_try_eq in Hx.
    destruct (elab_stmt P1 (cls_of s) void G a) as [[a' Ga]| | |] eqn:Ha; cbn [rbind fst] in Hx; try done.
    destruct (elab_catches (cls_of s) void G (k1 ++ (c, x, b) :: k2)) as [ks'| | |] eqn:Hks; cbn [rbind] in Hx; try done. injection Hx as <- _.
    destruct (IH1 void G a' Ga fr st Ha Hfa HG HF Hst) as (n1 & g1 & fr1 & st1 & Hex1 & Hfl1 & HF1 & [Hh1 Ho1] & K1).
    destruct g1 as [| | | |v1]; try done. destruct v1; cbn in Hfl1; try done. subst a0.
    destruct (find_catch _ _ _ _ _ _ _ _ _ _ _ _ _ Hh1 Ho Hks Hfk Hk1 Hc) as (b' & Gb & Hfind & Hb' & Hfx & Hfb & Has).
    pose proof HF1 as (Hvars & Hloc & Hth & Hself).
    destruct (IH2 void ([(x, TObj c)] :: G) b' Gb (Frame ([(x, VObj i)] :: fr_vars fr1) (fr_this fr1) (fr_home fr1)) st1 Hb' Hfb) as (n2 & g2 & fr2 & st2 & Hex2 & Hfl2 & HF2 & Hst2 & K2); [| |done|].
    { cbn [slook]. rewrite get_cons. destruct Hfx as (Hx & _). by rewrite (proj2 (str_eqb_false x w_this) Hx). }
    { split_and!; try done.
      - cbn. constructor; [|done]. intros y. rewrite get_cons. unfold upd. destruct (decide (y = x)) as [->|Hne].
        + rewrite bool_decide_eq_true_2, str_eqb_refl by done. done.
        + rewrite bool_decide_eq_false_2 by done. by rewrite (proj2 (str_eqb_false _ _)) by congruence.
      - intros m0 y u [->|Hin]%elem_of_cons Hy; [|by eapply Hloc]. unfold upd in Hy. case_bool_decide; [by subst|done]. }
    destruct HF2 as (Hv2 & Hl2 & Ht2 & Hs2). inversion Hv2 as [|m' bb E' V' Hbl Hvars' Heq1 Heq2]; subst.
    exists (S (n1 + n2)), g2, (Frame (tail (fr_vars fr2)) (fr_this fr1) (fr_home fr1)), st2. split_and!; try done; try apply Hst2; [| |by eapply keeps_trans].
    + intros [|n] Hn'; [lia|]. cbn [exec]. rewrite Hex1 by lia. cbn [rbind fst snd]. rewrite Hfind. cbn [fst snd]. rewrite Has. rewrite Hex2 by lia. done.
    + split_and!; try done.
      * cbn [fr_vars]. by rewrite <- Heq2.
      * intros m0 y u Hin Hy. eapply Hl2; [by right|done].
      * cbn [fr_home]. by eapply rel_self_keeps.
  - (* try: not caught *)
    intros s E E1 a ks i o B B1 _ IH Ho Hk void G x' G' fr st Hx [Hfa Hfk] HG HF Hst. rewrite elab_try_eq in Hx.
    destruct (elab_stmt P1 (cls_of s) void G a) as [[a' Ga]| | |] eqn:Ha; cbn [rbind fst] in Hx; try done.
    destruct (elab_catches (cls_of s) void G ks) as [ks'| | |] eqn:Hks; cbn [rbind] in Hx; try done. injection Hx as <- _.
    destruct (IH void G a' Ga fr st Ha Hfa HG HF Hst) as (n1 & g1 & fr1 & st1 & Hex1 & Hfl1 & HF1 & [Hh1 Ho1] & K1).
    destruct g1 as [| | | |v1]; try done. destruct v1; cbn in Hfl1; try done. subst a0.
    exists (S n1), (Thr (VObj i)), fr1, st1. split_and!; try done; try apply HF1.
    intros [|n] Hn'; [lia|]. cbn [exec]. rewrite Hex1 by lia. cbn [rbind fst snd].
    by rewrite (no_catch _ _ _ _ _ _ _ _ _ Hh1 Ho Hks Hk).
  - intros s E B void G x' G' fr st Hx _ HG HF Hst. injection Hx as <- _.
    exists 1, Brk, fr, st. split_and!; try done; try apply HF; try apply Hst; [|apply keeps_refl]. intros [|n] Hn; [lia|done].
  - intros s E B void G x' G' fr st Hx _ HG HF Hst. injection Hx as <- _.
    exists 1, Cont, fr, st. split_and!; try done; try apply HF; try apply Hst; [|apply keeps_refl]. intros [|n] Hn; [lia|done].
  - intros s E B void G x' G' fr st Hx _ HG HF Hst. injection Hx as <- _.
    exists 1, Go, fr, st. split_and!; try done; try apply HF; try apply Hst; [|apply keeps_refl]. intros [|n] Hn; [lia|done].
Qed.

Theorem run_as_meant out : means true P out -> exists n0, forall n, n0 <= n -> run n P = Ok out.
Proof.
  intros (q & v & B & Hin & Hfit & Hc & <-). destruct simulation as (_ & _ & _ & _ & _ & HC & _).
  destruct (function_found _ _ q Hin Hfit) as (q' & Hfu & He).
  assert (fine_method P None q) as Hfm. { destruct Hfine as (_ & _ & Hx). rewrite Forall_forall in Hx. apply Hx. by apply elem_of_list_In. }
  destruct (HC _ _ _ _ _ _ Hc q' None [] (State [] []) He Hfm) as (n0 & w & st & Hca & _ & [_ Hout] & _); [done|constructor|by split; [constructor|]|].
  exists n0. intros n Hn. unfold run. rewrite Hload. cbn [rbind]. rewrite Hfu. rewrite Hca by done. cbn [rbind snd]. by rewrite Hout.
Qed.
Theorem throws_as_meant : means_throw true P -> exists n0, forall n, n0 <= n -> run n P = Throw "uncaught exception".
Proof.
  intros (q & v & B & Hin & Hfit & Hc). destruct simulation as (_ & _ & _ & _ & HC & _).
  destruct (function_found _ _ q Hin Hfit) as (q' & Hfu & He).
  assert (fine_method P None q) as Hfm. { destruct Hfine as (_ & _ & Hx). rewrite Forall_forall in Hx. apply Hx. by apply elem_of_list_In. }
  destruct (HC _ _ _ _ _ _ Hc q' None [] (State [] []) He Hfm) as (n0 & g & st & Hca & Hfl & _); [done|constructor|by split; [constructor|]|].
  destruct g as [| | | |w]; try done. exists (S n0). intros [|n] Hn; [lia|]. unfold run. rewrite Hload. cbn [rbind]. rewrite Hfu. cbn [call]. by rewrite Hca by lia.
Qed.
End Sim.
