(** SchemaExamples.v -- concrete schemas meeting the hypotheses of PropertiesSchema.v, and schemas with
    reserved names. *)
From Verif Require Import Base LexerModel LexerSpec LogParserModel EventSpec StreamModel RegexModel RegexSpec RegexProofs
  RegexLang DfaModel SchemaModel SchemaSpec SchemaProofs SchemaPaths Toy PropertiesSchema.
From Coq Require Import String.
Local Open Scope list_scope.
Local Notation length := List.length.

Definition digits : regex := RGroup false false [(48, 57)].
Definition dot : regex := RGroup true false [(0, cUnicodeMax)].
(** int:[0-9]+ and kv:k.+ *)
Definition ex_vars : list (string * regex) :=
  [("int"%string, RMult digits 1 0); ("kv"%string, RCat (RLit 107) (RMult dot 1 0))].
(** Two delimiters lines: "," and then space and newline; with and without the timestamp T[0-9]. *)
Definition ex_schema : schema := mkSchema [[44]; [32; 10]] ex_vars.
Definition ex_schema_ts : schema := mkSchema [[44]; [32; 10]] (("timestamp"%string, RCat (RLit 84) digits) :: ex_vars).

Lemma ex_legal : legal ex_schema /\ legal ex_schema_ts.
Proof.
  split; (constructor; [discriminate| |]); intros name r Hi; cbn in Hi;
    repeat (destruct Hi as [[= <- <-]|Hi]; [try (cbn; intros X; repeat (destruct X as [X|X]; [discriminate|]); exact X);
      cbn; repeat split; discriminate|]); destruct Hi.
Qed.
Lemma ex_faithful : faithful_schema ex_schema /\ faithful_schema ex_schema_ts.
Proof.
  assert (D : faithful digits) by (cbn; split; [intros lo hi [[= <- <-]|[]]; lia|discriminate]).
  assert (W : faithful dot) by (cbn; split; [intros lo hi [[= <- <-]|[]]; unfold cUnicodeMax; lia|discriminate]).
  split; intros name r Hi; cbn in Hi;
    repeat (destruct Hi as [[= <- <-]|Hi];
      [split; [cbn [star_as_plus faithful]; repeat split; auto; try lia; try (apply D); try (apply W)|cbn; repeat split; auto; discriminate]|]); destruct Hi.
Qed.
(** Both are accepted; the ids are as expected, and the words " 12", "\nkx" and 0xFD"T1" are reported. *)
Example ex_accepted :
  match make_parser 100 N.of_nat ex_schema_ts with
  | Ret g => lg_nsym g = 9 /\ get_symbol_id g "kv" = Some 8 /\ get_symbol_id g "int" = Some 2 /\
      reported (c_dfa (lg_cfg g)) d_root [32; 49; 50] = [2] /\ reported (c_dfa (lg_cfg g)) d_root [10; 107; 44] = [8] /\
      reported (c_dfa (lg_cfg g)) d_root [253; 84; 49] = [5] /\ reported (c_dfa (lg_cfg g)) d_root [32; 107; 10] = [] /\
      c_delim (lg_cfg g) 44 = false
  | _ => False
  end.
Proof. vm_compute. repeat split; reflexivity. Qed.
(** A complete run: "T1 12\nk,,x 3\n" with ex_schema (no timestamps): three events. *)
Example ex_run :
  let t := [84;49;32;49;50;10;107;44;44;120;32;51;10] in
  match make_parser 100 N.of_nat ex_schema with
  | Ret g =>
    match lex_all 20 40 (lg_cfg g) 0 (exact_buf t) t (lp_in (bp_lp (bp_init (lg_nsym g)))) with
    | Ret toks => map (fun tok => (t_start tok, t_end tok, t_ids tok)) toks =
        [(0,2,Some [1]); (2,5,Some [2]); (5,10,Some [8]); (10,12,Some [2]); (12,13,Some [7]); (13,13,Some [0])]
    | _ => False
    end /\
    match parse_all 20 40 40 (lg_cfg g) 0 (buf_of t) t (bp_init (lg_nsym g)) with
    | Ret (ps, _) => map ev_to_string ps = [Ret [84;49;32;49;50;10]; Ret [107;44;44;120;32;51;10]; Ret []]
    | _ => False
    end
  | _ => False
  end.
Proof. vm_compute. repeat split; reflexivity. Qed.

(** C17 and C18 without [legal]: reserved names are not protected (LogParser.cpp 46-156 never checks them). A
    variable named newLineTimestamp cuts an event in the middle of a line: "T1 a N b" gives "T1 a " and
    "N b"; a variable named newLine ends the event: "a x b" gives "a x" and " b". *)
Definition bad_schema (name : string) (b : N) : schema :=
  mkSchema [[32; 10]] [("timestamp"%string, RCat (RLit 84) digits); (name, RLit b)].
Theorem C17_refuted_reserved_name : exists F addr g t calls fuel sfuel ps bp' p p',
  make_parser F addr (bad_schema "newLineTimestamp" 78) = Ret g /\ enough t calls fuel sfuel /\
  parse_all calls fuel sfuel (lg_cfg g) 0 (buf_of t) t (bp_init (lg_nsym g)) = Ret (ps, bp') /\
  nth_error ps 0 = Some p /\ nth_error ps 1 = Some p' /\ ev_timestamp p <> None /\
  ev_to_string p = Ret [84;49;32;97;32] /\ ev_to_string p' = Ret [78;32;98].
Proof.
  eexists 100%nat, N.of_nat, _, [84;49;32;97;32;78;32;98], 20%nat, 20%nat, 40%nat, _, _, _, _.
  split; [vm_compute; reflexivity|]. split; [constructor; vm_compute; try reflexivity; discriminate|].
  split; [vm_compute; reflexivity|]. split; [reflexivity|]. split; [reflexivity|]. split; [vm_compute; discriminate|].
  split; vm_compute; reflexivity.
Qed.
Print Assumptions C17_refuted_reserved_name.
Theorem C18_refuted_reserved_name : exists F addr g t calls fuel sfuel ps bp' p p',
  make_parser F addr (bad_schema "newLine" 120) = Ret g /\ enough t calls fuel sfuel /\
  parse_all calls fuel sfuel (lg_cfg g) 0 (buf_of t) t (bp_init (lg_nsym g)) = Ret (ps, bp') /\
  nth_error ps 0 = Some p /\ nth_error ps 1 = Some p' /\
  ev_to_string p = Ret [97;32;120] /\ ev_to_string p' = Ret [32;98].
Proof.
  eexists 100%nat, N.of_nat, _, [97;32;120;32;98], 20%nat, 20%nat, 40%nat, _, _, _, _.
  split; [vm_compute; reflexivity|]. split; [constructor; vm_compute; try reflexivity; discriminate|].
  split; [vm_compute; reflexivity|]. split; [reflexivity|]. split; [reflexivity|].
  split; vm_compute; reflexivity.
Qed.
Print Assumptions C18_refuted_reserved_name.
