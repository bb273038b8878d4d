(** C26-C28: storage of literals and source locations.  Statements only; proofs are in LitProofs.v. *)
Require Import ZArith List Bool Lia.
From Verif Require Import Base IntValModel IntValSpec LitModel LitSpec LitProofs.
Import ListNotations.
Open Scope Z_scope.

(** C26: in every reachable state, the literal made for v has the value v (or infinity) and keeps it,
    whatever literals are made or collected afterwards, until the literal itself is collected. *)
Theorem C26_integer_round_trip : forall st v addr st' p, reachable st -> wf v -> free_address st addr ->
  intlit_a st v addr = (st', p) ->
  reachable st' /\ eid p <> KFloatLit /\ intlit_v st' p = Some v /\
  forall es st'', history st' es st'' -> kept p es -> intlit_v st'' p = Some v.
Proof. exact C26_round_trip_l. Qed.
Print Assumptions C26_integer_round_trip.
(** equal integers share one literal *)
Theorem C26_integer_sharing : forall st v addr st' p addr', intlit_a st v addr = (st', p) -> intlit_a st' v addr' = (st', p).
Proof. exact C26_sharing_l. Qed.
Print Assumptions C26_integer_sharing.
(** packed integers: exactly those below 2^61 in magnitude; the pointer is recognised as an integer,
    is neither a tagged pointer nor a node address, and differs from that of any other integer *)
Theorem C26_packed : forall i,
  (forall p, intToUnboxedInt i = Some p ->
     - (2 ^ 61 - 1) <= i <= 2 ^ 61 - 1 /\ 0 < p < 2 ^ 64 /\ eid p = KIntLit /\ isTagged p = false /\ ~ node_address p /\
     unboxedIntToIntVal p = ofZ i) /\
  (intToUnboxedInt i = None -> ~ (- (2 ^ 61 - 1) <= i <= 2 ^ 61 - 1)).
Proof. exact C26_packed_l. Qed.
Print Assumptions C26_packed.
Theorem C26_packed_distinct : forall i j p, intToUnboxedInt i = Some p -> intToUnboxedInt j = Some p -> i = j.
Proof. exact C26_distinct_l. Qed.
Print Assumptions C26_packed_distinct.
(** node addresses are never taken for literals; the collector's tag is recognised and removed *)
Theorem C26_nodes : forall a, node_address a -> eid a = KNode /\ isTagged a = false /\
  isTagged (tag a) = true /\ eid (tag a) = KNode /\ ~ node_address (tag a) /\ untag (tag a) = a /\ untag a = a.
Proof. exact C26_node_l. Qed.
Print Assumptions C26_nodes.

Example C26_nonvacuous :
  let st := fst (intlit_a ls_init (ofZ (2 ^ 62)) 4096) in
  reachable st /\ free_address st 8192 /\ wf (ofZ LLONG_MIN) /\ wf (mkIV (-1) true) /\
  snd (intlit_a st (ofZ (2 ^ 62)) 8192) = 4096 /\ snd (intlit_a st (ofZ LLONG_MIN) 8192) = 8192 /\
  snd (intlit_a st (ofZ (-5)) 8192) = 46 /\ snd (intlit_a (collect st (fun a => a =? 4096)) (ofZ (2 ^ 62)) 8192) = 8192.
Proof.
  cbv zeta. split; [|split; [|split; [|split]]].
  - exists [MakeInt (ofZ (2 ^ 62)) 4096]. constructor; [|constructor]. split.
    + exists (Fin (2 ^ 62)). reflexivity.
    + repeat split; lia.
  - repeat split; lia.
  - exists (Fin LLONG_MIN). reflexivity.
  - exists MInf. reflexivity.
  - vm_compute. auto.
Qed.

(** C27: in every reachable state, the literal made for a finite double has exactly its bits, until it
    is collected. *)
Theorem C27_float_round_trip : forall st b addr st' p, reachable st -> finite_double b -> free_address st addr ->
  floatlit_a st b addr = (st', p) ->
  reachable st' /\ eid p <> KIntLit /\ floatlit_v st' p = Some b /\
  forall es st'', history st' es st'' -> kept p es -> floatlit_v st'' p = Some b.
Proof. exact C27_round_trip_l. Qed.
Print Assumptions C27_float_round_trip.
Theorem C27_packed : forall b, 0 <= b < 2 ^ 64 -> forall p, doubleToUnboxedFloatVal b = Some p ->
  0 < p < 2 ^ 64 /\ eid p = KFloatLit /\ isTagged p = false /\ ~ node_address p /\ unboxedFloatToFloatVal p = b.
Proof. exact C27_packed_l. Qed.
Print Assumptions C27_packed.
Theorem C27_infinities_not_packed : forall b, 0 <= b < 2 ^ 64 -> (b / 2 ^ 52) mod 2 ^ 11 = 2047 -> doubleToUnboxedFloatVal b = None.
Proof. exact C27_not_packed_l. Qed.
Print Assumptions C27_infinities_not_packed.

(* 1.0, -0.0, the smallest subnormal, 1e-300 (boxed) *)
Example C27_nonvacuous :
  finite_double 4607182418800017408 /\ finite_double (2 ^ 63) /\ finite_double 1 /\ finite_double 118622047119833664 /\
  doubleToUnboxedFloatVal 4607182418800017408 = Some 4602678819172646913 /\
  doubleToUnboxedFloatVal 118622047119833664 = None /\
  floatlit_v (fst (floatlit_a ls_init 118622047119833664 64)) 64 = Some 118622047119833664.
Proof. unfold finite_double. vm_compute. repeat split; congruence. Qed.

(** C28: a location returns what it was made from; the numbers stored in it are packed integers, which
    the collector need not mark. *)
Theorem C28_location_round_trip : forall file fl fc ll_ lc, u32_range fl -> u32_range fc -> u32_range ll_ -> u32_range lc ->
  let l := locvec_a file fl fc ll_ lc in
  loc_file l = file /\ loc_first_line l = fl /\ loc_last_line l = ll_ /\
  loc_first_column l = fc /\ loc_last_column l = lc /\
  Forall (fun v => exists z p, v = ofZ z /\ intToUnboxedInt z = Some p) (loc_ints l).
Proof. exact C28_l. Qed.
Print Assumptions C28_location_round_trip.
(** the "introduced" flag shares a word with the address of the stored numbers *)
Theorem C28_introduced_flag : forall a, node_address a ->
  loc_lv a = a /\ loc_isIntroduced a = false /\
  loc_lv (loc_introduce a) = a /\ loc_isIntroduced (loc_introduce a) = true /\
  loc_introduce (loc_introduce a) = loc_introduce a.
Proof. exact C28_introduced_l. Qed.
Print Assumptions C28_introduced_flag.
Example C28_nonvacuous :
  (exists c, location 8 1048575 1023 2097150 1023 = Ok (Loc2 8 c)) /\
  location 8 7 1024 9 3 = Ok (Loc5 8 (ofZ 7) (ofZ 9) (ofZ 1024) (ofZ 3)).
Proof. vm_compute. split; [eexists; reflexivity | reflexivity]. Qed.
