(** Reading the parameters of a script. *)
From Verif Require Import Base Base_Proofs Text_Model Value_Model Value_Spec Value_Proofs3 SysStr_Model SysStr_Spec SysStr_Proofs SysStr_Props Args_Model Args_Spec.

Definition chars (s : str) : list str := map (fun c => [c]) s.
Lemma chars_app a b : chars (a ++ b) = chars a ++ chars b.
Proof. apply map_app. Qed.
Lemma chars_cons c b : chars (c :: b) = [c] :: chars b.
Proof. reflexivity. Qed.

Lemma scan_app a : forall x b, scan_all x (a ++ b) = let! r := scan_all x a in let! q := scan_all (fst r) b in Ok (fst q, snd r ++ snd q).
Proof.
  induction a as [|c a IH]; intros x b; cbn [app scan_all].
  - cbn [rbind fst snd app]. destruct (scan_all x b) as [[]| | |]; reflexivity.
  - destruct (scan_step x c) as [r| | |]; cbn [rbind]; try reflexivity. rewrite IH. destruct (scan_all (fst r) a) as [q| | |]; cbn [rbind fst snd]; try reflexivity.
    destruct (scan_all (fst q) b) as [p| | |]; cbn [rbind fst snd]; try reflexivity. rewrite app_assoc. reflexivity.
Qed.
Lemma scan_then x a b x1 x2 l1 l2 : scan_all x a = Ok (x1, l1) -> scan_all x1 b = Ok (x2, l2) -> scan_all x (a ++ b) = Ok (x2, l1 ++ l2).
Proof. intros H1 H2. rewrite scan_app, H1. cbn [rbind fst snd]. rewrite H2. reflexivity. Qed.

Lemma step_then x c cs x1 r : scan_step x c = Ok (x1, []) -> scan_all x1 cs = Ok r -> scan_all x (c :: cs) = Ok r.
Proof. intros H1 H2. cbn [scan_all]. rewrite H1. cbn [rbind fst snd]. rewrite H2. destruct r; reflexivity. Qed.

Lemma one_char c d : str_eqb [c] [d] = bool_decide (c = d).
Proof. unfold str_eqb. apply bool_decide_ext. split; [intros H; congruence|intros ->; reflexivity]. Qed.
Lemma other c d : c <> d -> str_eqb [c] [d] = false.
Proof. intros H. rewrite one_char. apply bool_decide_eq_false_2. exact H. Qed.
Lemma not_in (c d : ascii) l : c ∉ d :: l -> c <> d /\ c ∉ l.
Proof. rewrite not_elem_of_cons. auto. Qed.

Lemma plain_step c v k a : c ∉ [blank; line_end; equals; quote; backslash] ->
  scan_step (Scan false false v k a) [c] = Ok (Scan false false v k (a ++ [c]), []).
Proof.
  intros H. repeat (apply not_in in H as [? H]). unfold scan_step. cbn [x_escape x_string x_value x_key x_param negb andb].
  change ($" ") with [blank]; change ($"=") with [equals]; rewrite !other by assumption; reflexivity.
Qed.
Lemma escaped_step c v k a : c ∉ [blank; line_end; equals] ->
  scan_all (Scan false false v k a) [[backslash]; [c]] = Ok (Scan false false v k (a ++ [c]), []).
Proof.
  intros H. repeat (apply not_in in H as [? H]).
  apply (step_then _ _ _ (Scan true false v k a)); [reflexivity|].
  cbn [scan_all]. unfold scan_step. cbn [x_escape x_string x_value x_key x_param negb andb]. change ($" ") with [blank]; change ($"=") with [equals]; rewrite !other by assumption; reflexivity.
Qed.
Lemma quoted_step q v k a : qchar_ok q ->
  scan_all (Scan false true v k a) (chars (write_qchar q)) = Ok (Scan false true v k (a ++ [qchar_text q]), []).
Proof.
  destruct q as [c|c]; cbn [qchar_ok write_qchar qchar_text chars map]; intros H.
  - repeat (apply not_in in H as [? H]). cbn [scan_all]. unfold scan_step. cbn [x_escape x_string x_value x_key x_param negb andb].
    change ($" ") with [blank]; change ($"=") with [equals]; rewrite !other by assumption; reflexivity.
  - apply (step_then _ _ _ (Scan true true v k a)); [reflexivity|].
    cbn [scan_all]. unfold scan_step. cbn [x_escape x_string x_value x_key x_param negb andb]. reflexivity.
Qed.
Lemma quoted_steps l : forall v k a, Forall qchar_ok l ->
  scan_all (Scan false true v k a) (chars (concat (map write_qchar l))) = Ok (Scan false true v k (a ++ map qchar_text l), []).
Proof.
  induction l as [|q l IH]; intros v k a H; cbn [map concat].
  - rewrite app_nil_r. reflexivity.
  - inversion H; subst. rewrite chars_app. rewrite (scan_then _ _ _ _ _ _ _ (quoted_step q v k a ltac:(assumption)) (IH _ _ _ ltac:(assumption))).
    rewrite <- app_assoc. reflexivity.
Qed.
Lemma piece_steps p v k a : piece_ok p ->
  scan_all (Scan false false v k a) (chars (write_piece p)) = Ok (Scan false false v k (a ++ piece_text p), []).
Proof.
  destruct p as [c|c|l]; cbn [piece_ok write_piece piece_text]; intros H.
  - cbn [chars map scan_all]. rewrite plain_step by exact H. reflexivity.
  - apply escaped_step. exact H.
  - rewrite chars_cons, chars_app.
    apply (step_then _ _ _ (Scan false true v k a)); [reflexivity|].
    rewrite (scan_then _ _ (chars [quote]) _ (Scan false false v k (a ++ map qchar_text l)) _ [] (quoted_steps l v k a H) eq_refl). reflexivity.
Qed.
Lemma pieces_steps l : forall v k a, Forall piece_ok l ->
  scan_all (Scan false false v k a) (chars (write_pieces l)) = Ok (Scan false false v k (a ++ pieces_text l), []).
Proof.
  unfold write_pieces, pieces_text. induction l as [|q l IH]; intros v k a H; cbn [map concat].
  - rewrite app_nil_r. reflexivity.
  - inversion H; subst. rewrite chars_app. rewrite (scan_then _ _ _ _ _ _ _ (piece_steps q v k a ltac:(assumption)) (IH _ _ _ ltac:(assumption))).
    rewrite <- app_assoc. reflexivity.
Qed.

(** The state behind a word *)
Definition after (w : word) : scan :=
  match w_value w with
  | Some v => Scan false false true (pieces_text (w_key w)) (pieces_text v)
  | None => Scan false false false [] (pieces_text (w_key w))
  end.
Lemma word_steps w : word_ok w -> scan_all scan0 (chars (write_word w)) = Ok (after w, []).
Proof.
  intros [K V]. unfold write_word, after. rewrite chars_app. destruct (w_value w) as [v|].
  - apply (scan_then _ _ _ _ _ [] [] (pieces_steps _ false [] [] K)). rewrite chars_cons, app_nil_l.
    apply (step_then _ _ _ (Scan false false true (pieces_text (w_key w)) [])); [reflexivity|].
    rewrite (pieces_steps v) by exact V. reflexivity.
  - change (chars []) with (@nil str). rewrite app_nil_r. rewrite (pieces_steps _ false [] []) by exact K. reflexivity.
Qed.

(** The parameter made of it *)
Lemma undashed_made k v : short k -> make_parameter k v = Ok (undashed k, v).
Proof.
  intros Hs. unfold short in Hs. unfold make_parameter. rewrite substr3_ok by lia. cbn [rbind]. change (Z.to_nat 0) with 0%nat. change (Z.to_nat 1) with 1%nat. rewrite drop_0.
  destruct k as [|c k]; [reflexivity|]. cbn [take]. rewrite take_0. change ($"-") with [chr 45]. rewrite one_char.
  cbn [undashed]. case_bool_decide as Hc; [|rewrite substr2_ok by lia; reflexivity]. subst c.
  rewrite substr3_ok by lia. cbn [rbind]. change (Z.to_nat 0) with 0%nat. change (Z.to_nat 2) with 2%nat. rewrite drop_0.
  destruct k as [|d k]; cbn [take]; [change (str_eqb [chr 45] ($"--")) with false; cbv iota; rewrite substr2_ok by (cbn [length]; lia); reflexivity|]. rewrite take_0.
  change ($"--") with [chr 45; chr 45]. unfold str_eqb. rewrite (bool_decide_ext ([chr 45; d] = [chr 45; chr 45]) (d = chr 45)) by (split; [intros H; congruence|intros ->; reflexivity]).
  cbn [length] in Hs. case_bool_decide as Hd; rewrite substr2_ok by (cbn [length]; lia); reflexivity.
Qed.
Lemma word_parameter w : short (write_word w) -> short (pieces_text (w_key w)) -> the_parameter (after w) = Ok (word_means w).
Proof.
  intros _ Hk. unfold the_parameter, after, word_means. destruct (w_value w); cbn [x_value x_key x_param]; apply undashed_made; exact Hk.
Qed.
Lemma lost_iff w : string_to_bool (x_param (after w)) || x_value (after w) = false <-> lost w.
Proof.
  unfold lost, after. destruct (w_value w) as [v|]; cbn [x_value x_param].
  - rewrite orb_true_r. split; [discriminate|intros [H _]; discriminate].
  - rewrite orb_false_r, string_to_bool_false. split; [auto|intros [_ H]; exact H].
Qed.

(** Texts are not shorter than what they stand for. *)
Lemma qchars_short l : (length (map qchar_text l) <= length (concat (map write_qchar l)))%nat.
Proof. induction l as [|q l IH]; [done|]. cbn [map concat]. rewrite app_length. destruct q; cbn [length write_qchar] in *; lia. Qed.
Lemma pieces_short l : (length (pieces_text l) <= length (write_pieces l))%nat.
Proof.
  unfold pieces_text, write_pieces. induction l as [|p l IH]; [done|]. cbn [map concat]. rewrite !app_length.
  destruct p as [c|c|q]; cbn [write_piece piece_text length]; [lia|lia|]. rewrite app_length. pose proof (qchars_short q). lia.
Qed.
Lemma word_short w : short (write_word w) -> short (pieces_text (w_key w)).
Proof. unfold short, write_word. rewrite app_length. pose proof (pieces_short (w_key w)). lia. Qed.

Lemma separator_step s w l : s ∈ [blank; line_end] -> word_ok w -> short (write_word w) ->
  (lost w -> l = []) -> (~ lost w -> l = [word_means w]) ->
  scan_all (after w) (chars [s]) = Ok (scan0, l).
Proof.
  intros Hs W Sh L1 L2. cbn [chars map scan_all].
  assert (St : scan_step (after w) [s] = let! l := (if string_to_bool (x_param (after w)) || x_value (after w) then let! p := the_parameter (after w) in Ok [p] else Ok []) in Ok (scan0, l)).
  { unfold scan_step. assert (E1 : x_escape (after w) = false) by (unfold after; destruct (w_value w); reflexivity).
    assert (E2 : x_string (after w) = false) by (unfold after; destruct (w_value w); reflexivity). rewrite E1, E2. cbn [negb andb].
    apply elem_of_cons in Hs as [->|Hs]; [reflexivity|]. apply elem_of_list_singleton in Hs as ->. reflexivity. }
  rewrite St. rewrite word_parameter by (auto using word_short).
  destruct (string_to_bool (x_param (after w)) || x_value (after w)) eqn:B; cbn [rbind fst snd].
  - rewrite L2; [reflexivity|]. rewrite <- lost_iff, B. discriminate.
  - rewrite L1; [reflexivity|]. apply lost_iff. exact B.
Qed.
Lemma lost_dec w : lost w \/ ~ lost w.
Proof. rewrite <- lost_iff. destruct (string_to_bool _ || _); [right; discriminate|left; reflexivity]. Qed.

Lemma words_steps ws : forall w, word_ok w -> Forall (fun q => fst q ∈ [blank; line_end] /\ word_ok (snd q)) ws ->
  short (write_words w ws) ->
  exists x l last, scan_all scan0 (chars (write_words w ws)) = Ok (x, l) /\ the_parameter x = Ok last /\ x_escape x = false /\
    words_mean (w :: map snd ws) (l ++ [last]).
Proof.
  induction ws as [|[s w1] ws IH]; intros w W F Sh; unfold write_words in *; cbn [map concat fst snd] in *.
  - rewrite app_nil_r in *. exists (after w), [], (word_means w). rewrite word_steps by exact W. split; [reflexivity|].
    split; [apply word_parameter; auto using word_short|]. split; [unfold after; destruct (w_value w); reflexivity|]. constructor.
  - inversion F as [|? ? [Hs W1] F1]; subst. cbn [fst snd] in *.
    assert (S1 : short (write_word w)) by (unfold short in *; rewrite !app_length in Sh; lia).
    assert (S2 : short (write_word w1 ++ concat (map (fun q : ascii * word => fst q :: write_word (snd q)) ws))) by (unfold short in *; rewrite !app_length in *; cbn [length] in Sh; lia).
    destruct (IH w1 W1 F1 S2) as (x & l & last & A & B & C & D).
    assert (Z : chars (write_word w ++ (s :: write_word w1) ++ concat (map (fun q : ascii * word => fst q :: write_word (snd q)) ws)) =
                chars (write_word w) ++ (chars [s] ++ chars (write_word w1 ++ concat (map (fun q : ascii * word => fst q :: write_word (snd q)) ws)))).
    { rewrite <- !chars_app. reflexivity. }
    rewrite Z. clear Z.
    destruct (lost_dec w) as [L|L].
    + exists x, l, last. split.
      { rewrite (scan_then _ _ _ _ _ [] _ (word_steps w W) (scan_then _ _ _ _ _ [] _ (separator_step s w [] Hs W S1 (fun _ => eq_refl) (fun N => False_ind _ (N L))) A)). reflexivity. }
      split; [exact B|]. split; [exact C|]. apply wm_lost; [discriminate|exact L|exact D].
    + exists x, (word_means w :: l), last. split.
      { rewrite (scan_then _ _ _ _ _ [] _ (word_steps w W) (scan_then _ _ _ _ _ [word_means w] _ (separator_step s w [word_means w] Hs W S1 (fun N => False_ind _ (L N)) (fun _ => eq_refl)) A)). reflexivity. }
      split; [exact B|]. split; [exact C|]. apply wm_kept; [discriminate|exact L|exact D].
Qed.

Lemma end_step x : x_escape x = false -> scan_all x [[]] = Ok (x, []).
Proof. destruct x as [e s v k p]. cbn [x_escape]. intros ->. cbn [scan_all]. unfold scan_step. cbn. rewrite !andb_false_r, app_nil_r. reflexivity. Qed.
Lemma read_words w ws : word_ok w -> Forall (fun q => fst q ∈ [blank; line_end] /\ word_ok (snd q)) ws -> short (write_words w ws) ->
  exists l, read_args (write_words w ws) = Ok l /\ words_mean (w :: map snd ws) l.
Proof.
  intros W F Sh. destruct (words_steps ws w W F Sh) as (x & l & last & A & B & C & D).
  exists (l ++ [last]). split; [|exact D]. unfold read_args. rewrite C61_characters_partial by (auto; lia). cbn [rbind].
  change (map (fun c : ascii => [c]) (write_words w ws)) with (chars (write_words w ws)).
  pose proof (scan_then _ _ _ _ _ _ [] A (end_step x C)) as R. unfold str in *. rewrite R.
  cbn [rbind fst snd]. rewrite B. cbn [rbind]. rewrite app_nil_r. reflexivity.
Qed.

(** What a text means is determined. *)
Lemma words_mean_fun ws l : words_mean ws l -> forall l', words_mean ws l' -> l' = l.
Proof.
  induction 1 as [w|w ws l N L H IH|w ws l N L H IH]; intros l' H'; inversion H'; subst; try done; try (f_equal; auto; fail); auto.
Qed.

(** The directory *)
Lemma directory_spec name : forall n, short name -> (n <= length name)%nat -> forall fuel, (n < fuel)%nat ->
  exists m, directory_loop fuel name (Z.of_nat n) = Ok (Z.of_nat m) /\ (m <= n)%nat /\ directory_of (take n name) (take m name).
Proof.
  induction n as [|n IH]; intros Sh Hn fuel Hf; destruct fuel as [|fuel]; try lia.
  - exists 0%nat. split; [reflexivity|]. split; [lia|]. exists []. rewrite take_0. split; [reflexivity|]. split; [inversion 1|left; reflexivity].
  - unfold short in Sh. cbn [directory_loop]. rewrite (proj2 (Z.ltb_lt 0 (Z.of_nat (S n)))) by lia.
    rewrite substr3_ok by lia. replace (Z.to_nat (Z.of_nat (S n) - 1)) with n by lia. change (Z.to_nat 1) with 1%nat. cbn [rbind].
    destruct (lookup_lt_is_Some_2 name n ltac:(lia)) as [c Ec].
    assert (D : drop n name = c :: drop (S n) name) by (apply drop_S; exact Ec).
    rewrite D. cbn [take]. rewrite take_0. change ($"/") with [chr 47]. rewrite one_char.
    assert (T : take (S n) name = take n name ++ [c]) by (apply take_S_r; exact Ec).
    case_bool_decide as Hc; cbn [negb].
    + subst c. exists (S n). split; [reflexivity|]. split; [lia|]. exists []. rewrite app_nil_r. split; [reflexivity|]. split; [inversion 1|right].
      exists (take n name). exact T.
    + replace (Z.of_nat (S n) - 1)%Z with (Z.of_nat n) by lia. destruct (IH ltac:(exact Sh) ltac:(lia) fuel ltac:(lia)) as (m & A & B & rest & C1 & C2 & C3).
      exists m. split; [exact A|]. split; [lia|]. exists (rest ++ [c]). rewrite T, C1, <- app_assoc. split; [reflexivity|]. split; [|exact C3].
      rewrite elem_of_app, elem_of_list_singleton. intros [H|H]; [exact (C2 H)|exact (Hc (eq_sym H))].
Qed.

(** ** The interpreter *)
Lemma found a l : a ∈ l -> is_arg a l = true.
Proof.
  unfold is_arg. intros H. apply existsb_exists. exists a. split; [apply elem_of_list_In; exact H|]. apply bool_decide_eq_true_2. reflexivity.
Qed.
Lemma not_found a l : a ∉ l -> is_arg a l = false.
Proof.
  unfold is_arg. intros H. apply not_true_is_false. intros T. apply existsb_exists in T as (x & Hx & T). apply bool_decide_eq_true_1 in T. subst x.
  apply H. apply elem_of_list_In. exact Hx.
Qed.
Lemma not_word a b : a <> b -> str_eqb a b = false.
Proof. apply bool_decide_eq_false_2. Qed.

Lemma script_args_spec l : forall p t, script_args l p t = (p ++ l, t ++ concat (map (cons line_end) l)).
Proof.
  induction l as [|a l IH]; intros p t; cbn [script_args map concat]; [rewrite !app_nil_r; reflexivity|].
  rewrite IH. f_equal; rewrite <- !app_assoc; reflexivity.
Qed.

(** What keeps a script from running *)
Definition idle (g : setup) : bool :=
  g_debug g || g_version g || g_usage g || g_tokens g || g_syntax g || match g_spec g with Some _ => true | None => false end.
Ltac is_in := repeat (first [apply elem_of_list_here | apply elem_of_list_further]); fail.
Ltac is_out := repeat (apply not_elem_of_cons; split; [discriminate|]); apply not_elem_of_nil.
Ltac members H := repeat (apply elem_of_cons in H as [->|H]); [..|inversion H].

Lemma run_options_step o : run_options o -> forall rest g, exists g', process_parameters (o ++ rest) g = process_parameters rest g' /\ idle g' = idle g /\ g_file g' = g_file g.
Proof.
  induction 1 as [|s l Hs H IH|w d l Hw H IH]; intros rest g; cbn [app].
  - exists g. auto.
  - unfold harmless in Hs. members Hs.
    + destruct (IH rest (set_loud 1 g)) as (g' & A & B & C). exists g'. split; [exact A|auto].
    + destruct (IH rest (set_loud 1 g)) as (g' & A & B & C). exists g'. split; [exact A|auto].
    + destruct (IH rest (clear_sanity g)) as (g' & A & B & C). exists g'. split; [exact A|auto].
    + destruct (IH rest (set_loud 2 g)) as (g' & A & B & C). exists g'. split; [exact A|auto].
    + destruct (IH rest (set_loud 2 g)) as (g' & A & B & C). exists g'. split; [exact A|auto].
  - destruct (IH rest (add_lib d g)) as (g' & A & B & C). exists g'. split; [|auto]. members Hw; exact A.
Qed.
Lemma idle_or g b : idle g = true -> b = true \/ idle g = true.
Proof. auto. Qed.
Ltac idles := unfold idle; cbn; rewrite ?orb_true_r; try reflexivity; intros; rewrite ?orb_true_iff in *; tauto.
Lemma options_step o : options o -> forall rest g, exists g', process_parameters (o ++ rest) g = process_parameters rest g'.
Proof.
  induction 1 as [|s l Hs H IH|w d l Hw H IH|q l H IH]; intros rest g; cbn [app].
  - exists g. auto.
  - unfold switches in Hs. members Hs; [destruct (IH rest (set_debug g)) as (g' & A)|destruct (IH rest (set_usage g)) as (g' & A)|destruct (IH rest (set_usage g)) as (g' & A)
     |destruct (IH rest (set_loud 1 g)) as (g' & A)|destruct (IH rest (set_loud 1 g)) as (g' & A)|destruct (IH rest (clear_sanity g)) as (g' & A)
     |destruct (IH rest (set_syntax g)) as (g' & A)|destruct (IH rest (set_tokens g)) as (g' & A)|destruct (IH rest (set_loud 2 g)) as (g' & A)
     |destruct (IH rest (set_loud 2 g)) as (g' & A)|destruct (IH rest (set_version g)) as (g' & A)]; exists g'; exact A.
  - destruct (IH rest (add_lib d g)) as (g' & A). exists g'. members Hw; exact A.
  - destruct (IH rest (set_spec q g)) as (g' & A). exists g'. exact A.
Qed.
Lemma idle_stays n : forall l g r, (length l <= n)%nat -> idle g = true -> process_parameters l g = Ok r -> idle (fst r) = true.
Proof.
  induction n as [|n IH]; intros l g r Hn I H; destruct l as [|a l]; cbn [length] in Hn; try lia; cbn [process_parameters] in H; try (injection H as <-; exact I).
  repeat match type of H with
  | (if ?b then _ else _) = _ => destruct b
  | match l with _ => _ end = _ => destruct l as [|a' l]; cbn [length] in Hn
  | match g_file g with _ => _ end = _ => destruct (g_file g)
  | Throw _ = _ => discriminate
  | Ok _ = _ => injection H as <-; cbn [fst]
  | process_parameters ?l ?g = _ => apply (IH l g r); [lia| |exact H]
  end; clear IH; try exact I; revert I; idles.
Qed.
Lemma idle_no_run argv g : process_parameters argv setup0 = Ok g -> idle (fst g) = true -> forall f n text, interpreter argv <> Ok (RunScript f n text).
Proof.
  intros H I f n text. unfold interpreter. rewrite H. cbn [rbind]. unfold idle in I.
  destruct (g_debug (fst g)); [discriminate|]. destruct (g_spec (fst g)); [discriminate|]. destruct (g_version (fst g)); [discriminate|].
  destruct (g_usage (fst g)); [discriminate|]. cbn [orb]. destruct (bool_decide _); [discriminate|]. destruct (g_tokens (fst g)); [discriminate|].
  destruct (g_syntax (fst g)); [discriminate|]. discriminate.
Qed.
Lemma switch_stops opts s rest : options opts -> s ∈ switches -> s ∉ harmless -> forall f n text, interpreter (opts ++ s :: rest) <> Ok (RunScript f n text).
Proof.
  intros O Hs Hh. destruct (options_step _ O (s :: rest) setup0) as (g & A).
  assert (B : exists g', process_parameters (s :: rest) g = process_parameters rest g' /\ idle g' = true).
  { unfold switches in Hs.
    members Hs; try (exfalso; apply Hh; unfold harmless; repeat (first [apply elem_of_list_here | apply elem_of_list_further]); fail).
    - exists (set_debug g). split; [reflexivity|idles].
    - exists (set_usage g). split; [reflexivity|idles].
    - exists (set_usage g). split; [reflexivity|idles].
    - exists (set_syntax g). split; [reflexivity|idles].
    - exists (set_tokens g). split; [reflexivity|idles].
    - exists (set_version g). split; [reflexivity|idles]. }
  destruct B as (g' & B & C). rewrite B in A. intros f n text. destruct (process_parameters rest g') as [r| | |] eqn:R;
    [|unfold interpreter; rewrite A; discriminate..].
  apply (idle_no_run _ r A). apply (idle_stays (length rest) rest g' r); auto.
Qed.
Lemma no_script opts : run_options opts -> interpreter opts = Ok ShowUsage.
Proof.
  intros O. destruct (run_options_step _ O [] setup0) as (g & A & B & C). rewrite app_nil_r in A. unfold interpreter. rewrite A. cbn [process_parameters rbind fst snd].
  unfold idle in B. cbn in B. rewrite !orb_false_iff in B. destruct B as [[[[[-> ->] ->] _] _] B]. destruct (g_spec g); [discriminate|]. rewrite C. reflexivity.
Qed.
Lemma missing_value opts w : options opts -> w ∈ [$"-l"; $"--library"; $"-f"; $"--file"] -> interpreter (opts ++ [w]) = Throw "exit".
Proof. intros O Hw. destruct (options_step _ O [w] setup0) as (g & A). unfold interpreter. rewrite A. members Hw; reflexivity. Qed.

Lemma named_step named f : script_named named f -> forall rest g, g_file g = [] -> process_parameters (named ++ rest) g = Ok (set_file f g, script_args rest [f] f).
Proof.
  intros N rest g G. destruct N as [w f Hw|f Hs Ho]; cbn [app].
  - members Hw; reflexivity.
  - unfold switches in Hs. cbn [process_parameters].
    assert (W : forall s, s ∈ switches -> f <> s) by (intros s Q ->; exact (Hs Q)).
    assert (W' : forall s, s ∈ [$"-l"; $"--library"; $"-f"; $"--file"; $"--spec"] -> f <> s) by (intros s Q ->; exact (Ho Q)).
    rewrite (not_word f ($"--debug")), (not_word f ($"--skip-sanitycheck")), (not_word f ($"--syntax")), (not_word f ($"--tokens")), (not_word f ($"--version")), (not_word f ($"--spec"))
      by (first [apply W; is_in | apply W'; is_in]).
    assert (N : forall l, Forall (fun s => f <> s) l -> is_arg f l = false).
    { intros l F. apply not_found. intros Q. rewrite Forall_forall in F. exact (F f Q eq_refl). }
    rewrite !N by (repeat constructor; first [apply W; is_in | apply W'; is_in]).
    rewrite G. reflexivity.
Qed.
Lemma run_script opts named f args : run_options opts -> script_named named f -> f <> [] -> (Z.of_nat (length args) < 2 ^ 31 - 1)%Z ->
  interpreter (opts ++ named ++ args) = Ok (RunScript f (Z.of_nat (S (length args))) (f ++ concat (map (cons line_end) args))).
Proof.
  intros O N F L. destruct (run_options_step _ O (named ++ args) setup0) as (g & A & B & C). unfold interpreter. rewrite A, (named_step _ _ N) by exact C.
  cbn [rbind fst snd]. rewrite script_args_spec. unfold idle in B. cbn in B. rewrite !orb_false_iff in B. destruct B as [[[[[B1 B2] B3] B4] B5] B6].
  destruct (g_spec g) eqn:Q; [discriminate|]. cbn [set_file g_debug g_spec g_version g_usage g_file g_tokens g_syntax fst snd]. rewrite B1, B2, B3, B4, B5, Q.
  rewrite bool_decide_eq_false_2 by exact F. cbn [orb]. rewrite app_length. change (length [f]) with 1%nat. rewrite wrap32_small by lia. reflexivity.
Qed.

(** ** Careful writing *)
Lemma quoted_ok s : Forall piece_ok (quoted s).
Proof.
  constructor; [|constructor]. cbn [piece_ok]. apply Forall_map. apply Forall_forall. intros c _. cbn. case_bool_decide as H; cbn; auto.
Qed.
Lemma quoted_text s : pieces_text (quoted s) = s.
Proof.
  unfold pieces_text, quoted. cbn [map concat piece_text]. rewrite app_nil_r, map_map. induction s as [|c s IH]; [reflexivity|]. cbn [map]. rewrite IH. case_bool_decide; reflexivity.
Qed.
Lemma undashed_id k : head k <> Some (chr 45) -> undashed k = k.
Proof. destruct k as [|c k]; [reflexivity|]. cbn [head undashed]. intros H. rewrite bool_decide_eq_false_2 by congruence. reflexivity. Qed.
Lemma careful_means p : head (fst p) <> Some (chr 45) -> word_means (careful p) = p.
Proof. intros H. unfold word_means, careful. cbn [w_key w_value]. rewrite !quoted_text, undashed_id by exact H. destruct p; reflexivity. Qed.
Lemma careful_kept p : ~ lost (careful p).
Proof. intros [H _]. discriminate. Qed.
Lemma careful_words ps : forall p, Forall (fun p => head (fst p) <> Some (chr 45)) (p :: ps) -> words_mean (careful p :: map careful ps) (p :: ps).
Proof.
  induction ps as [|q ps IH]; intros p F; inversion F as [|? ? F1 F2]; subst.
  - rewrite <- (careful_means p) at 2 by exact F1. constructor.
  - rewrite <- (careful_means p) at 2 by exact F1. cbn [map]. apply wm_kept; [discriminate|apply careful_kept|]. apply IH. exact F2.
Qed.
Lemma read_careful p ps : Forall (fun p => head (fst p) <> Some (chr 45)) (p :: ps) ->
  short (write_words (careful p) (map (fun p => (blank, careful p)) ps)) ->
  read_args (write_words (careful p) (map (fun p => (blank, careful p)) ps)) = Ok (p :: ps).
Proof.
  intros F Sh. destruct (read_words (careful p) (map (fun p => (blank, careful p)) ps)) as (l & A & B).
  - split; apply quoted_ok.
  - apply Forall_map, Forall_forall. intros q _. split; [cbn; constructor|]. split; apply quoted_ok.
  - exact Sh.
  - rewrite A. f_equal. refine (words_mean_fun _ _ _ _ B). rewrite map_map. cbn [snd]. apply careful_words. exact F.
Qed.

(** ** Plain arguments *)
Definition plainly (s : str) : list piece := map Plain s.
Lemma plainly_ok s : simple s -> Forall piece_ok (plainly s).
Proof. intros H. apply Forall_map. exact H. Qed.
Lemma plainly_text s : pieces_text (plainly s) = s.
Proof. unfold pieces_text, plainly. rewrite map_map. cbn [piece_text]. induction s as [|c s IH]; [reflexivity|]. cbn [map concat]. rewrite IH. reflexivity. Qed.
Lemma plainly_written s : write_pieces (plainly s) = s.
Proof. unfold write_pieces, plainly. rewrite map_map. cbn [write_piece]. induction s as [|c s IH]; [reflexivity|]. cbn [map concat]. rewrite IH. reflexivity. Qed.
Lemma argument_word a p : argument a p -> exists w, word_ok w /\ write_word w = a /\ word_means w = p /\ ~ lost w.
Proof.
  intros [k K N|k v K V].
  - exists (Word (plainly k) None). split; [split; [apply plainly_ok; exact K|exact I]|]. unfold write_word, word_means, lost. cbn [w_key w_value].
    rewrite plainly_written, plainly_text, app_nil_r. split; [reflexivity|]. split; [reflexivity|]. intros [_ Q]. exact (N Q).
  - exists (Word (plainly k) (Some (plainly v))). split; [split; apply plainly_ok; assumption|]. unfold write_word, word_means, lost. cbn [w_key w_value].
    rewrite !plainly_written, !plainly_text. split; [reflexivity|]. split; [reflexivity|]. intros [Q _]. discriminate.
Qed.
Lemma arguments_words args ps : Forall2 argument args ps ->
  exists ws, Forall (fun q => fst q ∈ [blank; line_end] /\ word_ok (snd q)) ws /\ concat (map (fun q => fst q :: write_word (snd q)) ws) = concat (map (cons line_end) args) /\
    forall w, ~ lost w -> words_mean (w :: map snd ws) (word_means w :: ps).
Proof.
  induction 1 as [|a p args ps A _ (ws & B & C & D)].
  - exists []. split; [constructor|]. split; [reflexivity|]. intros w _. constructor.
  - destruct (argument_word a p A) as (w & W1 & W2 & W3 & W4). exists ((line_end, w) :: ws). split; [constructor; [|exact B]; split; [cbn; right; left|exact W1]|].
    split; [cbn [map concat fst snd]; rewrite W2, C; reflexivity|]. intros w0 W0. cbn [map snd]. apply wm_kept; [discriminate|exact W0|]. rewrite <- W3. apply D. exact W4.
Qed.
Lemma arguments_count args : (length args <= length (concat (map (cons line_end) args)))%nat.
Proof. induction args as [|a args IH]; [done|]. cbn [map concat]. rewrite app_length. cbn [length]. lia. Qed.
Lemma script_parameters opts named f args ps : run_options opts -> script_named named f -> simple f -> ~ falsy f -> head f <> Some (chr 45) ->
  Forall2 argument args ps -> short (f ++ concat (map (cons line_end) args)) ->
  exists argc text d, interpreter (opts ++ named ++ args) = Ok (RunScript f argc text) /\
    new_handler argc text false = Ok (Handler f d ps) /\ directory_of f d.
Proof.
  intros O N Sf Ff Df A Sh.
  assert (Nf : f <> []) by (intros ->; apply Ff; apply string_to_bool_false; reflexivity).
  assert (Lf : short f) by (unfold short in *; rewrite app_length in Sh; lia).
  destruct (directory_spec f (length f) Lf ltac:(lia) (S (length f)) ltac:(lia)) as (m & D1 & D2 & D3).
  exists (Z.of_nat (S (length args))), (f ++ concat (map (cons line_end) args)), (take m f).
  split; [apply run_script; [exact O|exact N|exact Nf|]; unfold short in Sh; rewrite app_length in Sh; pose proof (arguments_count args); unfold str in *; lia|].
  split; [|rewrite firstn_all in D3; exact D3].
  destruct (argument_word f (undashed f, []) (arg_key f Sf Ff)) as (w & W1 & W2 & W3 & W4).
  destruct (arguments_words args ps A) as (ws & B & C & E).
  assert (T : f ++ concat (map (cons line_end) args) = write_words w ws) by (unfold write_words; rewrite W2, C; reflexivity).
  rewrite T in *. destruct (read_words w ws W1 B Sh) as (l & R1 & R2).
  rewrite (words_mean_fun _ _ (E w W4) l R2) in R1. rewrite W3, undashed_id in R1 by exact Df.
  unfold new_handler. rewrite R1. cbn [rbind fst]. rewrite str_len_short by (unfold short in Lf; lia). rewrite D1. cbn [rbind].
  unfold short in Lf. rewrite substr3_ok by lia. cbn [rbind]. change (Z.to_nat 0) with 0%nat. rewrite drop_0, Nat2Z.id.
  rewrite (Forall2_length _ _ _ A). match goal with |- context [if ?b then _ else _] => replace b with true by (symmetry; apply Z.eqb_eq; unfold parameter, str in *; lia) end. reflexivity.
Qed.
Lemma simple_steps s v k a : simple s -> scan_all (Scan false false v k a) (chars s) = Ok (Scan false false v k (a ++ s), []).
Proof. intros H. rewrite <- (plainly_written s) at 1. rewrite pieces_steps by (apply plainly_ok; exact H). rewrite plainly_text. reflexivity. Qed.
Lemma equals_twice k v u : simple k -> simple v -> simple u -> short (k ++ [equals] ++ v ++ [equals] ++ u) -> head v <> Some (chr 45) ->
  read_args (k ++ [equals] ++ v ++ [equals] ++ u) = Ok [(v, u)].
Proof.
  intros K V U Sh Hv. unfold read_args. rewrite C61_characters_partial by (auto; lia). cbn [rbind].
  assert (R : scan_all scan0 (chars (k ++ [equals] ++ v ++ [equals] ++ u) ++ [[]]) = Ok (Scan false false true v u, [])).
  { rewrite !chars_app, <- !app_assoc.
    apply (scan_then _ _ _ _ _ [] [] (simple_steps k _ _ _ K)). apply (step_then _ _ _ (Scan false false true k [])); [reflexivity|]. cbn [map].
    apply (scan_then _ _ _ _ _ [] [] (simple_steps v _ _ _ V)). apply (step_then _ _ _ (Scan false false true v [])); [reflexivity|]. cbn [map].
    apply (scan_then _ _ _ _ _ [] [] (simple_steps u _ _ _ U)). apply end_step. reflexivity. }
  unfold chars, str in *. rewrite R. cbn [rbind fst snd]. unfold the_parameter. cbn [x_value x_key x_param].
  rewrite undashed_made by (unfold short in *; rewrite !app_length in Sh; lia). rewrite undashed_id by exact Hv. reflexivity.
Qed.

(** ** Looking up *)
Lemma find_first key a p b : fst p = key -> Forall (fun q => fst q <> key) a -> find_param (a ++ p :: b) key = Some p.
Proof.
  intros <-. induction 1 as [|q a Q _ IH]; cbn [app find_param]; [unfold str_eqb; rewrite bool_decide_eq_true_2 by reflexivity; reflexivity|].
  unfold str_eqb. rewrite bool_decide_eq_false_2 by exact Q. exact IH.
Qed.
Lemma find_none key a : Forall (fun q => fst q <> key) a -> find_param a key = None.
Proof. induction 1 as [|q a Q _ IH]; cbn [find_param]; [reflexivity|]. unfold str_eqb. rewrite bool_decide_eq_false_2 by exact Q. exact IH. Qed.
Lemma drop_first key a p b : fst p = key -> Forall (fun q => fst q <> key) a -> drop_param (a ++ p :: b) key = (true, a ++ b).
Proof.
  intros <-. induction 1 as [|q a Q _ IH]; cbn [app drop_param]; [unfold str_eqb; rewrite bool_decide_eq_true_2 by reflexivity; reflexivity|].
  unfold str_eqb. rewrite bool_decide_eq_false_2 by exact Q. rewrite IH. reflexivity.
Qed.
Lemma drop_none key a : Forall (fun q => fst q <> key) a -> drop_param a key = (false, a).
Proof. induction 1 as [|q a Q _ IH]; cbn [drop_param]; [reflexivity|]. unfold str_eqb. rewrite bool_decide_eq_false_2 by exact Q. rewrite IH. reflexivity. Qed.
Lemma lookup_first h a p b : h_params h = a ++ p :: b -> Forall (fun q => fst q <> fst p) a ->
  contains_param h (fst p) = true /\ get_param h (fst p) = Ok p /\ param_at h (Z.of_nat (length a)) = Ok p /\
  exists h', remove_param h (fst p) = (true, h') /\ h_params h' = a ++ b /\ h_program h' = h_program h.
Proof.
  intros P F. unfold contains_param, get_param, param_at, remove_param. rewrite P. pose proof (find_first (fst p) a p b eq_refl F) as Q1. pose proof (drop_first (fst p) a p b eq_refl F) as Q2. unfold parameter, str in *. rewrite Q1, Q2.
  split; [reflexivity|]. split; [reflexivity|]. split.
  - rewrite app_length. cbn [length]. destruct (Z.ltb_spec (Z.of_nat (length a)) 0); [lia|]. destruct (Z.leb_spec (Z.of_nat (length a + S (length b))) (Z.of_nat (length a))); [lia|].
    cbn [orb]. rewrite Nat2Z.id, nth_error_app2 by lia. rewrite Nat.sub_diag. reflexivity.
  - eexists. split; [reflexivity|]. auto.
Qed.
Lemma lookup_absent h key : Forall (fun q => fst q <> key) (h_params h) ->
  contains_param h key = false /\ get_param h key = Throw "Exception" /\ remove_param h key = (false, h).
Proof.
  intros F. unfold contains_param, get_param, remove_param. rewrite (find_none key _ F), (drop_none key _ F). destruct h; auto.
Qed.
