(** The command line: theorems of property C69. *)
From Verif Require Import Base Base_Proofs Text_Model Value_Model Value_Spec Value_Proofs3 SysStr_Model SysStr_Spec SysStr_Proofs SysStr_Props Args_Model Args_Spec Args_Proofs.

(** ** The interpreter *)
(** Nothing behind the script is an option of the interpreter: the script gets itself and every argument, in order and each on
    a line of its own, and their number, whatever the arguments are. *)
Theorem C69_arguments opts named f args : run_options opts -> script_named named f -> f <> [] -> (Z.of_nat (length args) < 2 ^ 31 - 1)%Z ->
  interpreter (opts ++ named ++ args) = Ok (RunScript f (Z.of_nat (S (length args))) (f ++ concat (map (cons line_end) args))).
Proof. apply run_script. Qed.
Example C69_arguments_ex :
  run_options [$"-l"; $"--version"; $"-q"] /\ script_named [$"s.os"] ($"s.os") /\
  interpreter [$"-l"; $"--version"; $"-q"; $"s.os"; $"--help"; $"a b"] = Ok (RunScript ($"s.os") 3 ($"s.os" ++ [chr 10] ++ $"--help" ++ [chr 10] ++ $"a b")).
Proof.
  split; [apply run_library; [by constructor|]; apply run_switch; [by constructor|constructor]|]. split.
  - apply named_alone; is_out.
  - vm_compute. reflexivity.
Qed.
Print Assumptions C69_arguments.

(** A request for help, the version, the tokens and so on in front of the script is never a run of the script. *)
Theorem C69_no_run opts s rest : options opts -> s ∈ switches -> s ∉ harmless -> forall f n text, interpreter (opts ++ s :: rest) <> Ok (RunScript f n text).
Proof. apply switch_stops. Qed.
Example C69_no_run_ex : options [$"-l"; $"lib"; $"-q"] /\ interpreter [$"-l"; $"lib"; $"-q"; $"--help"; $"s.os"] = Ok ShowUsage.
Proof.
  split; [|vm_compute; reflexivity]. apply options_library; [by constructor|]. apply options_switch; [is_in|constructor].
Qed.
Print Assumptions C69_no_run.

(** Without a script, or with an empty name for it, the usage is shown and nothing is run. *)
Theorem C69_no_script opts : run_options opts -> interpreter opts = Ok ShowUsage.
Proof. apply no_script. Qed.
Example C69_no_script_ex : run_options [$"-v"] /\ interpreter [$"-v"] = Ok ShowUsage.
Proof. split; [apply run_switch; [is_in|constructor]|vm_compute; reflexivity]. Qed.
Print Assumptions C69_no_script.
(** An option whose value is missing ends the interpreter. *)
Theorem C69_missing opts w : options opts -> w ∈ [$"-l"; $"--library"; $"-f"; $"--file"] -> interpreter (opts ++ [w]) = Throw "exit".
Proof. apply missing_value. Qed.
Example C69_missing_ex : interpreter [$"-q"; $"--file"] = Throw "exit".
Proof. vm_compute. reflexivity. Qed.
Print Assumptions C69_missing.

(** ** The parameters *)
(** Every text of words is read as what its words mean, and the meaning is determined. *)
Theorem C69_words w ws : word_ok w -> Forall (fun q => fst q ∈ [blank; line_end] /\ word_ok (snd q)) ws -> short (write_words w ws) ->
  exists l, read_args (write_words w ws) = Ok l /\ forall l', words_mean (w :: map snd ws) l' <-> l' = l.
Proof.
  intros W F Sh. destruct (read_words w ws W F Sh) as (l & A & B). exists l. split; [exact A|]. intros l'. split; [apply (words_mean_fun _ _ B)|intros ->; exact B].
Qed.
Example C69_words_ex :
  let w := Word [Plain (chr 45); Plain (chr 97)] (Some [Quoted [QPlain (chr 32); QEscaped (chr 34)]; Plain (chr 98)]) in
  word_ok w /\ read_args (write_words w [(blank, w)]) = Ok [($"a", [chr 32; chr 34; chr 98]); ($"a", [chr 32; chr 34; chr 98])].
Proof.
  cbv zeta. split; [|vm_compute; reflexivity]. split; cbn [w_key w_value]; (repeat constructor); cbn [piece_ok qchar_ok]; is_out.
Qed.
Print Assumptions C69_words.

(** Whatever the keys and the values are: written in quotation marks they are read back. *)
Theorem C69_careful p ps : Forall (fun p => head (fst p) <> Some (chr 45)) (p :: ps) ->
  short (write_words (careful p) (map (fun p => (blank, careful p)) ps)) ->
  read_args (write_words (careful p) (map (fun p => (blank, careful p)) ps)) = Ok (p :: ps).
Proof. apply read_careful. Qed.
Example C69_careful_ex : read_args (write_words (careful ($"a b", $"= ")) [(blank, careful ([], [chr 34; chr 10; chr 92]))]) = Ok [($"a b", $"= "); ([], [chr 34; chr 10; chr 92])].
Proof. vm_compute. reflexivity. Qed.
Print Assumptions C69_careful.

(** From the command line to the script: arguments without special characters arrive as parameters, one for each, in order;
    the handler knows the script and its directory. *)
Theorem C69_script opts named f args ps : run_options opts -> script_named named f -> simple f -> ~ falsy f -> head f <> Some (chr 45) ->
  Forall2 argument args ps -> short (f ++ concat (map (cons line_end) args)) ->
  exists argc text d, interpreter (opts ++ named ++ args) = Ok (RunScript f argc text) /\
    new_handler argc text false = Ok (Handler f d ps) /\ directory_of f d.
Proof. apply script_parameters. Qed.
Example C69_script_ex :
  Forall2 argument [$"--key=value"; $"-x"] [($"key", $"value"); ($"x", [])] /\
  new_handler 3 ($"bin/s.os" ++ [chr 10] ++ $"--key=value" ++ [chr 10] ++ $"-x") false = Ok (Handler ($"bin/s.os") ($"bin/") [($"key", $"value"); ($"x", [])]).
Proof.
  split; [|vm_compute; reflexivity]. constructor; [|constructor; [|constructor]].
  - apply (arg_value ($"--key") ($"value")); repeat (apply Forall_cons; split; [is_out|]); constructor.
  - apply (arg_key ($"-x")); [repeat (apply Forall_cons; split; [is_out|]); constructor|]. rewrite <- string_to_bool_false. vm_compute. discriminate.
Qed.
Print Assumptions C69_script.

(** ** Looking parameters up *)
(** A key stands for the first parameter with it. *)
Theorem C69_lookup h a p b : h_params h = a ++ p :: b -> Forall (fun q => fst q <> fst p) a ->
  contains_param h (fst p) = true /\ get_param h (fst p) = Ok p /\ param_at h (Z.of_nat (length a)) = Ok p /\
  exists h', remove_param h (fst p) = (true, h') /\ h_params h' = a ++ b /\ h_program h' = h_program h.
Proof. apply lookup_first. Qed.
Example C69_lookup_ex :
  let h := Handler [] [] [($"a", $"1"); ($"b", $"2"); ($"b", $"3")] in
  get_param h ($"b") = Ok ($"b", $"2") /\ remove_param h ($"b") = (true, Handler [] [] [($"a", $"1"); ($"b", $"3")]).
Proof. vm_compute. split; reflexivity. Qed.
Print Assumptions C69_lookup.
Theorem C69_absent h key : Forall (fun q => fst q <> key) (h_params h) ->
  contains_param h key = false /\ get_param h key = Throw "Exception" /\ remove_param h key = (false, h).
Proof. apply lookup_absent. Qed.
Example C69_absent_ex : get_param (Handler [] [] [($"a", $"1")]) ($"b") = Throw "Exception".
Proof. vm_compute. reflexivity. Qed.
Print Assumptions C69_absent.

(** ** What does not hold *)
(** One argument with a blank in it is two parameters, and the handler fails. *)
Theorem C69_blank_refuted : ~ (forall f args argc text, args <> [] -> interpreter (f :: args) = Ok (RunScript f argc text) -> exists h, new_handler argc text false = Ok h /\ length (h_params h) = length args).
Proof.
  intros H. destruct (H ($"s.os") [$"a b"] 2%Z ($"s.os" ++ [chr 10] ++ $"a b")) as (h & A & _); [discriminate|vm_compute; reflexivity|].
  vm_compute in A. discriminate.
Qed.
Print Assumptions C69_blank_refuted.
(** An empty argument or the word false is lost in front of another one, and the handler fails. *)
Theorem C69_falsy_refuted : Forall (fun a => interpreter [$"s.os"; a; $"b"] = Ok (RunScript ($"s.os") 3 ($"s.os" ++ [chr 10] ++ a ++ [chr 10] ++ $"b")) /\
  new_handler 3 ($"s.os" ++ [chr 10] ++ a ++ [chr 10] ++ $"b") false = Throw "AssertionFailed") [[]; $"false"; $"FALSE"].
Proof. repeat (apply Forall_cons; split; [split; vm_compute; reflexivity|]). constructor. Qed.
Print Assumptions C69_falsy_refuted.
(** A value with an equals sign: the key is lost and the front of the value becomes the key. *)
Theorem C69_equals_refuted k v u : simple k -> simple v -> simple u -> short (k ++ [equals] ++ v ++ [equals] ++ u) -> head v <> Some (chr 45) ->
  read_args (k ++ [equals] ++ v ++ [equals] ++ u) = Ok [(v, u)].
Proof. apply equals_twice. Qed.
Example C69_equals_refuted_ex : read_args ($"url=a=b") = Ok [($"a", $"b")].
Proof. vm_compute. reflexivity. Qed.
Print Assumptions C69_equals_refuted.
(** A blank behind the last word is one more parameter. *)
Theorem C69_end_refuted : read_args ($"s.os a ") = Ok [($"s.os", []); ($"a", []); ([], [])] /\ new_handler 2 ($"s.os a ") false = Throw "AssertionFailed".
Proof. split; vm_compute; reflexivity. Qed.
Print Assumptions C69_end_refuted.
