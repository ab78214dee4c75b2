(** Proofs about files: what every call keeps, and what streams do. *)
From Verif Require Import Base Text_Model Value_Model Value_Proofs File_Model File_Spec.

(** ** Small facts *)
Lemma c_str_id s : NUL ∉ s -> c_str s = s.
Proof.
  induction s as [|c s IH]; cbn [c_str]; intros h; [done|].
  destruct (ascii_dec c NUL) as [->|]; [exfalso; apply h; left|].
  rewrite IH; [done|]. intros hs. apply h. by right.
Qed.
Lemma c_str_no_nul s : NUL ∉ c_str s.
Proof.
  induction s as [|c s IH]; cbn [c_str]; [apply not_elem_of_nil|].
  destruct (ascii_dec c NUL) as [->|]; [apply not_elem_of_nil|].
  rewrite elem_of_cons. intros [E|]; [congruence|done].
Qed.
Lemma c_str_sub s c : c ∈ c_str s -> c ∈ s.
Proof.
  induction s as [|d s IH]; cbn [c_str]; [done|].
  destruct (ascii_dec d NUL); [intros h; by apply elem_of_nil in h|].
  rewrite !elem_of_cons. intros [->|h]; [by left|right; by apply IH].
Qed.
Lemma has_elem x l : existsb (fun d => if ascii_dec d x then true else false) l = true -> x ∈ l.
Proof.
  rewrite existsb_exists. intros (d & hd & E). destruct (ascii_dec d x) as [->|]; [|done]. by apply elem_of_list_In.
Qed.

(** ** Streams stay what they are *)
(** All but the place, the end mark and the last direction; [op]: still open. *)
Definition kin (op : bool) (m m' : stream) : Prop :=
  sm_node m' = sm_node m /\ sm_rd m' = sm_rd m /\ sm_wr m' = sm_wr m /\ sm_app m' = sm_app m /\ sm_open m' = op.
Definition tidy (m : stream) : Prop :=
  (sm_last m = LRead -> sm_rd m = true) /\ (sm_last m = LWrite -> sm_wr m = true).
Lemma kin_refl m : kin (sm_open m) m m.
Proof. done. Qed.
Lemma kin_trans m m' m'' : kin (sm_open m) m m' -> kin (sm_open m') m' m'' -> kin (sm_open m) m m''.
Proof. unfold kin. intros (?&?&?&?&?) (?&?&?&?&?). split_and!; congruence. Qed.

Lemma c_read_kin n m f bs m' : c_read n m f = Ok (bs, m') -> kin (sm_open m) m m' /\ (tidy m -> tidy m').
Proof.
  unfold c_read. destruct (sm_rd m) eqn:Er; cbn [negb]; [|intros [= <- <-]; by split].
  destruct (sm_last m) eqn:El; [| |done]; (destruct (sm_eof m) eqn:Ee; intros [= <- <-]; [by split|]);
    (split; [unfold kin; cbn; by rewrite Er|intros _; by split]).
Qed.
Lemma reads_loop_kin fuel m f len v r m' :
  reads_loop fuel m f len v = Ok (r, m') -> kin (sm_open m) m m' /\ (tidy m -> tidy m').
Proof.
  revert m len v. induction fuel as [|fuel IH]; intros m len v; cbn [reads_loop]; [done|].
  destruct ((0 <? len)%Z || (len =? -1)%Z); [|intros [= <- <-]; by split].
  destruct (c_read 1 m f) as [[bs m1]| | |] eqn:E; cbn [rbind fst snd]; try done.
  destruct (c_read_kin _ _ _ _ _ E) as [h1 h2].
  destruct bs as [|b bs]; [intros [= <- <-]; by split|].
  intros H. destruct (IH _ _ _ H) as [h3 h4]. split; [by eapply kin_trans|auto].
Qed.
Lemma c_gets_kin n m f r m' : c_gets n m f = Ok (r, m') -> kin (sm_open m) m m' /\ (tidy m -> tidy m').
Proof.
  unfold c_gets. destruct (n =? 1); [intros [= <- <-]; by split|].
  destruct (sm_rd m) eqn:Er; cbn [negb]; [|intros [= <- <-]; by split].
  destruct (sm_last m) eqn:El; [| |done]; (destruct (sm_eof m) eqn:Ee; intros [= <- <-]; [by split|]);
    (split; [unfold kin; cbn; by rewrite Er|intros _; by split]).
Qed.
Lemma gets_loop_kin fuel m f d sz v r m' :
  gets_loop fuel m f d sz v = Ok (r, m') -> kin (sm_open m) m m' /\ (tidy m -> tidy m').
Proof.
  revert m d v. induction fuel as [|fuel IH]; intros m d v; cbn [gets_loop]; [done|].
  destruct (d <? sz)%Z; [|intros [= <- <-]; by split].
  destruct (c_gets _ m f) as [[bs m1]| | |] eqn:E; cbn [rbind fst snd]; try done.
  destruct (c_gets_kin _ _ _ _ _ E) as [h1 h2].
  intros H. destruct (IH _ _ _ H) as [h3 h4]. split; [by eapply kin_trans|auto].
Qed.
Lemma c_write_kin bs m f b m' f' :
  c_write bs m f = Ok (b, m', f') -> kin (sm_open m) m m' /\ (tidy m -> tidy m') /\ (sm_wr m = false -> f' = f).
Proof.
  unfold c_write. destruct (sm_wr m) eqn:Ew; cbn [negb]; [|intros [= <- <- <-]; by split_and!].
  destruct (sm_last m) eqn:El, (sm_eof m) eqn:Ee; try done; intros [= <- <- <-];
    (split_and!; [unfold kin; cbn; by rewrite Ew|intros _; by split|done]).
Qed.
Lemma c_seek_kin off g m f m' : c_seek off g m f = Some m' -> kin (sm_open m) m m' /\ tidy m'.
Proof.
  unfold c_seek. repeat case_match; try done; intros [= <-]; (split; [by unfold kin|by split]).
Qed.

(** ** What a call on a handle leaves behind *)
Definition touch (w : world) (i : nat) (m : stream) (f : str) : world :=
  World (w_names w) (<[sm_node m := f]> (w_nodes w)) (<[i := m]> (w_streams w)) (w_handles w) (w_deny w).
Inductive touched (w : world) (c : call) (h : Z) (w' : world) : Prop :=
| Touched i m f m' f' op :
    w_handles w !! h = Some (Some i) -> w_streams w !! i = Some m -> sm_open m = true ->
    w_nodes w !! sm_node m = Some f -> w' = touch w i m' f' -> kin op m m' -> (op = false <-> c = CClose h) ->
    (tidy m -> tidy m') -> (sm_wr m = false -> f' = f) -> touched w c h w'.
Lemma on_stream_ok {A} w h (k : nat -> stream -> str -> res A) r :
  on_stream w h k = Ok r ->
  exists i m f, w_handles w !! h = Some (Some i) /\ w_streams w !! i = Some m /\ sm_open m = true /\
                w_nodes w !! sm_node m = Some f /\ k i m f = Ok r.
Proof.
  unfold on_stream. destruct (w_handles w !! h) as [[i|]|] eqn:E1; try done.
  destruct (w_streams w !! i) as [m|] eqn:E2; [|done]. destruct (sm_open m) eqn:E3; [|done].
  destruct (w_nodes w !! sm_node m) as [f|] eqn:E4; [|done]. intros H. by exists i, m, f.
Qed.
Lemma set_stream_touch w i m m' f :
  w_nodes w !! sm_node m = Some f -> sm_node m' = sm_node m -> set_stream w i m' = touch w i m' f.
Proof. intros h E. unfold set_stream, touch. by rewrite E, (list_insert_id _ _ _ h). Qed.
Lemma same_touch w i m f : w_streams w !! i = Some m -> w_nodes w !! sm_node m = Some f -> w = touch w i m f.
Proof. intros h1 h2. unfold touch. rewrite (list_insert_id _ _ _ h2), (list_insert_id _ _ _ h1). by destruct w. Qed.

Lemma perform_touched w c h a w' :
  handle_of c = Some h -> perform w c = Ok (a, w') ->
  touched w c h w' \/ (w' = w /\ w_handles w !! h = Some None).
Proof.
  intros hh H.
  assert (rd : forall A (k : nat -> stream -> str -> res (A * stream)) (g : A -> res answer),
    (forall i m f r m', k i m f = Ok (r, m') -> kin (sm_open m) m m' /\ (tidy m -> tidy m')) -> c <> CClose h ->
    on_stream w h (fun i m f => let! p := k i m f in let! q := g (fst p) in Ok (q, set_stream w i (snd p))) = Ok (a, w') ->
    touched w c h w').
  { intros A k g hk hc E. apply on_stream_ok in E as (i & m & f & h1 & h2 & h3 & h4 & E).
    destruct (k i m f) as [[r m']| | |] eqn:Ek; cbn [rbind fst snd] in E; try done.
    destruct (g r) as [q| | |]; cbn [rbind] in E; try done. injection E as <- <-.
    destruct (hk _ _ _ _ _ Ek) as [hk1 hk2]. assert (hk0 := hk1). destruct hk0 as (hn & _).
    apply (Touched _ _ _ _ i m f m' f (sm_open m)); try done; [by apply set_stream_touch with m|].
    rewrite h3. split; [done|congruence]. }
  assert (wr : forall bs (g : bool -> res answer), c <> CClose h ->
    on_stream w h (fun i m f => let! p := c_write bs m f in let! q := g (p.1.1) in Ok (q, wrote w i p)) = Ok (a, w') ->
    touched w c h w').
  { intros bs g hc E. apply on_stream_ok in E as (i & m & f & h1 & h2 & h3 & h4 & E).
    destruct (c_write bs m f) as [[[b m'] f']| | |] eqn:Ek; cbn [rbind fst snd] in E; try done.
    destruct (g b) as [q| | |]; cbn [rbind] in E; try done. injection E as <- <-.
    destruct (c_write_kin _ _ _ _ _ _ Ek) as (hk1 & hk2 & hk3).
    apply (Touched _ _ _ _ i m f m' f' (sm_open m)); try done.
    rewrite h3. split; [done|congruence]. }
  destruct c as [n md|h0|h0|h0|h0 off g|h0|h0 len|h0|h0|h0 v|h0 b|h0 s|c0 h0|h0|h0 sz]; cbn [handle_of] in hh; try done;
    injection hh as <-; cbn [perform as_num as_text] in H.
  - left. unfold fclose in H. destruct (on_stream w h0 _) as [p| | |] eqn:E; cbn [rbind] in H; try done. injection H as <- <-.
    apply on_stream_ok in E as (i & m & f & h1 & h2 & h3 & h4 & E). injection E as <-.
    set (m' := Stream _ _ _ _ _ _ _ _). apply (Touched _ _ _ _ i m f m' f false); try done. by apply set_stream_touch with m.
  - left. unfold feof in H. destruct (on_stream w h0 _) as [p| | |] eqn:E; cbn [rbind] in H; try done. injection H as <- <-.
    apply on_stream_ok in E as (i & m & f & h1 & h2 & h3 & h4 & E). injection E as <-.
    apply (Touched _ _ _ _ i m f m f (sm_open m)); try done; [by apply same_touch|].
    by rewrite h3.
  - left. unfold ftell in H. destruct (on_stream w h0 _) as [p| | |] eqn:E; cbn [rbind] in H; try done. injection H as <- <-.
    apply on_stream_ok in E as (i & m & f & h1 & h2 & h3 & h4 & E). injection E as <-.
    apply (Touched _ _ _ _ i m f m f (sm_open m)); try done; [by apply same_touch|].
    by rewrite h3.
  - left. unfold fseek in H. destruct (on_stream w h0 _) as [p| | |] eqn:E; cbn [rbind] in H; try done. injection H as <- <-.
    apply on_stream_ok in E as (i & m & f & h1 & h2 & h3 & h4 & E).
    destruct (c_seek off g m f) as [m'|] eqn:Es; [|done]. injection E as <-.
    destruct (c_seek_kin _ _ _ _ _ Es) as [hk ht]. assert (hk0 := hk). destruct hk0 as (hn & _).
    apply (Touched _ _ _ _ i m f m' f (sm_open m)); try done; [by apply set_stream_touch with m|].
    by rewrite h3.
  - unfold fflush in H.
    assert (E : (w' = w /\ w_handles w !! h0 = Some None) \/ exists m0, (exists i m f, w_handles w !! h0 = Some (Some i) /\
       w_streams w !! i = Some m /\ sm_open m = true /\ w_nodes w !! sm_node m = Some f /\
       m0 = Stream (sm_node m) (sm_pos m) (sm_rd m) (sm_wr m) (sm_app m) (sm_open m) (sm_eof m)
                                           (match sm_last m with LWrite => LNone | l => l end) /\ w' = set_stream w i m0)).
    { destruct (w_handles w !! h0) as [[i0|]|] eqn:Eh.
      - right. destruct (on_stream w h0 _) as [p| | |] eqn:E; cbn [rbind] in H; try done. injection H as <- <-.
        apply on_stream_ok in E as (i & m & f & h1 & h2 & h3 & h4 & E). injection E as <-.
        eexists. exists i, m, f. split_and!; try done. congruence.
      - left. by injection H as <- <-.
      - unfold on_stream in H. by rewrite Eh in H. }
    destruct E as [E|(m0 & i & m & f & h1 & h2 & h3 & h4 & E & ->)]; [by right|left].
    apply (Touched _ _ _ _ i m f m0 f (sm_open m)); try done; [apply set_stream_touch with m; by rewrite ?E| | |].
    + by rewrite E.
    + by rewrite h3.
    + intros [t1 t2]. rewrite E. split; cbn; destruct (sm_last m); naive_solver.
  - left. eapply (rd _ (fun i m f => reads_loop (S (S (length f))) m f len []) (fun x => Ok (AText x))); [|done|].
    + intros. by eapply reads_loop_kin.
    + unfold freads, on_stream in *. destruct (w_handles w !! h0) as [[i|]|]; try done.
      destruct (w_streams w !! i) as [m|]; [|done]. destruct (sm_open m); [|done]. destruct (w_nodes w !! sm_node m) as [f|]; [|done].
      destruct (reads_loop _ m f len []); cbn [rbind] in *; done.
  - left. eapply (rd _ (fun i m f => c_read 4 m f) (fun x => Ok (ANum (wrap 32 (bytes_value x))))); [|done|].
    + intros. by eapply c_read_kin.
    + unfold freadi, on_stream in *. destruct (w_handles w !! h0) as [[i|]|]; try done.
      destruct (w_streams w !! i) as [m|]; [|done]. destruct (sm_open m); [|done]. destruct (w_nodes w !! sm_node m) as [f|]; [|done].
      destruct (c_read 4 m f); cbn [rbind] in *; done.
  - left. eapply (rd _ (fun i m f => c_read 1 m f) (fun x => match bytes_value x with 0%Z => Ok (ABool false) | 1%Z => Ok (ABool true) | _ => UB end)); [|done|].
    + intros. by eapply c_read_kin.
    + unfold freadb, on_stream in *. destruct (w_handles w !! h0) as [[i|]|]; try done.
      destruct (w_streams w !! i) as [m|]; [|done]. destruct (sm_open m); [|done]. destruct (w_nodes w !! sm_node m) as [f|]; [|done].
      destruct (c_read 1 m f) as [[bs m1]| | |]; cbn [rbind fst snd] in *; try done.
      destruct (bytes_value bs) as [|[]|]; cbn [rbind fst snd] in *; done.
  - left. eapply (wr (int_bytes v) (fun b => Ok (ANum (if b then 1%Z else 0%Z)))); [done|].
    unfold fwritei, fwrite_bytes, on_stream in *. destruct (w_handles w !! h0) as [[i|]|]; try done.
      destruct (w_streams w !! i) as [m|]; [|done]. destruct (sm_open m); [|done]. destruct (w_nodes w !! sm_node m) as [f|]; [|done].
      destruct (c_write _ m f); cbn [rbind] in *; done.
  - left. eapply (wr [byte (if b then 1 else 0)] (fun b => Ok (ANum (if b then 1%Z else 0%Z)))); [done|].
    unfold fwriteb, fwrite_bytes, on_stream in *. destruct (w_handles w !! h0) as [[i|]|]; try done.
    destruct (w_streams w !! i) as [m|]; [|done]. destruct (sm_open m); [|done]. destruct (w_nodes w !! sm_node m) as [f|]; [|done].
    destruct (c_write _ m f); cbn [rbind] in *; done.
  - left. eapply (wr (c_str s) (fun b => if b then Ok (ANum 1%Z) else Throw "RuntimeException")); [done|].
    unfold fwrites, on_stream in *. destruct (w_handles w !! h0) as [[i|]|]; try done.
    destruct (w_streams w !! i) as [m|]; [|done]. destruct (sm_open m); [|done]. destruct (w_nodes w !! sm_node m) as [f|]; [|done].
    destruct (c_write _ m f) as [[[b m'] f']| | |]; cbn [rbind fst snd] in *; try done. destruct b; done.
  - left. eapply (wr [byte c0] (fun b => Ok (ANum (if b then c0 mod 256 else -1)%Z))); [done|].
    unfold fputc, on_stream in *. destruct (w_handles w !! h0) as [[i|]|]; try done.
    destruct (w_streams w !! i) as [m|]; [|done]. destruct (sm_open m); [|done]. destruct (w_nodes w !! sm_node m) as [f|]; [|done].
    destruct (c_write _ m f) as [[[b m'] f']| | |]; cbn [rbind fst snd] in *; done.
  - left. eapply (rd _ (fun i m f => c_read 1 m f) (fun x => Ok (AText (print_int (match x with [] => -1 | b :: _ => Z.of_nat (nat_of_ascii b) end)%Z)))); [|done|].
    + intros. by eapply c_read_kin.
    + unfold fgetc, on_stream in *. destruct (w_handles w !! h0) as [[i|]|]; try done.
      destruct (w_streams w !! i) as [m|]; [|done]. destruct (sm_open m); [|done]. destruct (w_nodes w !! sm_node m) as [f|]; [|done].
      destruct (c_read 1 m f); cbn [rbind] in *; done.
  - left. eapply (rd _ (fun i m f => gets_loop (S (S (Z.to_nat (sz / READ_SIZE)))) m f 0 sz None) (fun x => Ok (match x with Some s => AText s | None => ANothing end))); [|done|].
    + intros. by eapply gets_loop_kin.
    + unfold fgets, on_stream in *. destruct (w_handles w !! h0) as [[i|]|]; try done.
      destruct (w_streams w !! i) as [m|]; [|done]. destruct (sm_open m); [|done]. destruct (w_nodes w !! sm_node m) as [f|]; [|done].
      destruct (gets_loop _ m f 0 sz None); cbn [rbind] in *; done.
Qed.
