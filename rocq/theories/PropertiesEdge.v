(** PropertiesEdge.v -- C71: a buffer that ends exactly where its text ends. *)
From Verif Require Import Base LexerModel LexerSpec LogParserModel EventSpec StreamModel LexerProofs LogParserProofs StreamProofs EventProofs ReaderSpec
  Toy ToyTs EdgeProofs.

(** Parse a text from a buffer of exactly its size, and from the same buffer with one more byte [x] behind the text. The latter is always defined
    ([ps ++ [p]]: its events, at least one). The former reads behind the buffer if and only if the last event has a token and, besides, no timestamp or
    an empty text; otherwise it reports the same events and is done. *)
Theorem C71_exact_buffer : forall c nsym t k m x bp calls fuel sfuel name,
  usable c nsym -> stored m t -> m (len t) = None -> idle nsym bp -> enough t calls fuel sfuel ->
  exists ps p bp1,
    parse_all calls fuel sfuel c k (fun i => if i =? len t then Some x else m i) t bp = Ret (ps ++ [p], bp1) /\
    let behind := ev_tokens p <> [] /\ (ev_timestamp p = None \/ ev_to_string p = Ret []) in
    (behind /\ parse_all calls fuel sfuel c k m t bp = UB) \/
    (~ behind /\ exists qs bp2, parse_all calls fuel sfuel c k m t bp = Ret (qs, bp2) /\
       map (report_of name nsym) qs = map (report_of name nsym) (ps ++ [p]) /\ bp_done bp2 = true /\ idle nsym bp2).
Proof.
  intros c nsym t k m x bp calls fuel sfuel name Hus Hm Hn Hi He. exact (parse_all_edge c t k m x nsym Hus Hm Hn name calls fuel sfuel bp Hi He).
Qed.
Print Assumptions C71_exact_buffer.

(** Not vacuous: "a" is read behind; "T 1:2" is one event with a timestamp, and "a" followed by a newline leaves an event without tokens: the
    exact buffer suffices. The empty text has one event without tokens. *)
Example C71_behind : exists bp1 p, 
  parse_all 102 102 210 toy 0 (fun i => if i =? 1 then Some 0 else exact_buf [97] i) [97] (bp_init toy_nsym) = Ret ([p], bp1) /\
  ev_tokens p <> [] /\ ev_timestamp p = None /\ ev_to_string p = Ret [97] /\
  parse_all 102 102 210 toy 0 (exact_buf [97]) [97] (bp_init toy_nsym) = UB.
Proof. eexists _, _. split; [vm_compute; reflexivity|]. split; [vm_compute; discriminate|]. repeat (split; [vm_compute; reflexivity|]). vm_compute; reflexivity. Qed.
Example C71_timestamp : exists bp1 p,
  parse_all 102 102 210 toy 0 (exact_buf [84;32;49;32;97]) [84;32;49;32;97] (bp_init toy_nsym) = Ret ([p], bp1) /\
  exact_buf [84;32;49;32;97] 5 = None /\ List.length (ev_tokens p) = 3%nat /\ ev_timestamp p <> None /\ ev_to_string p = Ret [84;32;49;32;97].
Proof. eexists _, _. split; [vm_compute; reflexivity|]. repeat (split; [vm_compute; reflexivity|]). split; [vm_compute; discriminate|vm_compute; reflexivity]. Qed.
Example C71_newline : exists bp1 p q, 
  parse_all 102 102 210 toy 0 (exact_buf [97;10]) [97;10] (bp_init toy_nsym) = Ret ([p; q], bp1) /\
  exact_buf [97;10] 2 = None /\ ev_to_string p = Ret [97;10] /\ ev_tokens q = [].
Proof. eexists _, _, _. split; [vm_compute; reflexivity|]. repeat (split; [vm_compute; reflexivity|]). vm_compute; reflexivity. Qed.
Example C71_hypotheses : usable toy toy_nsym /\ stored (exact_buf [84;32;49;32;97]) [84;32;49;32;97] /\
  exact_buf [84;32;49;32;97] (len [84;32;49;32;97]) = None /\ idle toy_nsym (bp_init toy_nsym) /\ enough [84;32;49;32;97] 102 102 210.
Proof.
  split; [exact toy_usable|]. split; [intros p _; reflexivity|]. split; [reflexivity|]. split; [apply bp_init_idle|apply enough_100; reflexivity].
Qed.
