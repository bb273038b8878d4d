(** What a reader of a JSON stream relies on: JSON values as RFC 8259 defines them. *)
Require Import ZArith List Bool.
From Verif Require Import StrModel JsonModel JsonSpec StatModel.
Import ListNotations.
Open Scope Z_scope.

Inductive value : Type := VNum (text : str) | VBool (b : bool) | VStr (s : str) | VList (l : list value) | VObj (l : list (str * value)).

Definition is_digit (c : Z) : Prop := 48 <= c <= 57.
(** section 6: an integer part without leading zeros, a fraction, an exponent *)
Inductive int_part : str -> Prop :=
| IP_zero : int_part [48]
| IP_pos c l : 49 <= c <= 57 -> Forall is_digit l -> int_part (c :: l).
Inductive frac_part : str -> Prop :=
| FP_none : frac_part []
| FP_some c l : is_digit c -> Forall is_digit l -> frac_part (46 :: c :: l).
Inductive exp_part : str -> Prop :=
| EP_none : exp_part []
| EP_some e sg c l : e = 101 \/ e = 69 -> sg = [] \/ sg = [43] \/ sg = [45] -> is_digit c -> Forall is_digit l -> exp_part (e :: sg ++ c :: l).
Definition json_number (t : str) : Prop :=
  exists sg i f x, t = sg ++ i ++ f ++ x /\ (sg = [] \/ sg = [45]) /\ int_part i /\ frac_part f /\ exp_part x.

(** section 7: the characters of a string; a control character has to be written as an escape *)
Inductive chars : str -> str -> Prop :=
| CH_nil : chars [] []
| CH_cons t v ts vs : denotes t v -> (forall c, t = [c] -> 32 <= c) -> chars ts vs -> chars (t ++ ts) (v ++ vs).

(** sections 2 to 5: [json t v], the text t is JSON for the value v *)
Inductive json : str -> value -> Prop :=
| J_blank b t b' v : Forall blank b -> Forall blank b' -> json t v -> json (b ++ t ++ b') v
| J_num t : json_number t -> json t (VNum t)
| J_true : json [116; 114; 117; 101] (VBool true)
| J_false : json [102; 97; 108; 115; 101] (VBool false)
| J_str t v : chars t v -> json (34 :: t ++ [34]) (VStr v)
| J_empty b : Forall blank b -> json (91 :: b ++ [93]) (VList [])
| J_arr t l : elements t l -> json (91 :: t ++ [93]) (VList l)
| J_none b : Forall blank b -> json (123 :: b ++ [125]) (VObj [])
| J_obj t l : members t l -> json (123 :: t ++ [125]) (VObj l)
with elements : str -> list value -> Prop :=
| E_one t v : json t v -> elements t [v]
| E_more t v ts vs : json t v -> elements ts vs -> elements (t ++ 44 :: ts) (v :: vs)
with members : str -> list (str * value) -> Prop :=
| M_one b k n b' t v : Forall blank b -> chars k n -> Forall blank b' -> json t v -> members (b ++ 34 :: k ++ 34 :: b' ++ 58 :: t) [(n, v)]
| M_more b k n b' t v ts vs : Forall blank b -> chars k n -> Forall blank b' -> json t v -> members ts vs ->
    members ((b ++ 34 :: k ++ 34 :: b' ++ 58 :: t) ++ 44 :: ts) ((n, v) :: vs).

(** one JSON value on a line of its own *)
Definition json_line (t : str) (v : value) : Prop := exists u, t = u ++ [10] /\ ~ In 10 u /\ json u v.

(** texts without control characters other than newlines and tabs *)
Definition clean (s : str) : Prop := Forall (fun c => 32 <= c \/ c = 9 \/ c = 10) s.
Definition one_line (s : str) : Prop := ~ In 10 s.

(** the value of an expression that JSON can express *)
Inductive expresses : expr -> value -> Prop :=
| X_num t : json_number t -> expresses (ENum t) (VNum t)
| X_bool b : expresses (EBool b) (VBool b)
| X_str s : clean s -> expresses (EStr s) (VStr s)
| X_nil : expresses (EArr []) (VList [])
| X_cons x v l vs : expresses x v -> expresses (EArr l) (VList vs) -> expresses (EArr (x :: l)) (VList (v :: vs)).

(** the statistics that a list of calls reports; infinite numbers and identifiers are not reported *)
Inductive reports : list stat -> list (str * value) -> Prop :=
| P_nil : reports [] []
| P_int n t l r : clean n -> json_number t -> reports l r -> reports (AddInt n t :: l) ((n, VNum t) :: r)
| P_double n t l r : clean n -> json_number t -> reports l r -> reports (AddDouble n (Finite t) :: l) ((n, VNum t) :: r)
| P_infinite n d l r : d = PosInf \/ d = NegInf \/ d = NaN -> reports l r -> reports (AddDouble n d :: l) r
| P_string n s l r : clean n -> clean s -> reports l r -> reports (AddString n s :: l) ((n, VStr s) :: r)
| P_expr n e v l r : clean n -> expresses e v -> reports l r -> reports (AddExpr n e :: l) ((n, v) :: r)
| P_id n s l r : reports l r -> reports (AddExpr n (EId s) :: l) r.

(** the calls that print a line in the text format, with the name and the number or string they print *)
Inductive listed : list stat -> list (str * str) -> Prop :=
| L_nil : listed [] []
| L_int n t l r : listed l r -> listed (AddInt n t :: l) ((n, t) :: r)
| L_double n t l r : listed l r -> listed (AddDouble n (Finite t) :: l) ((n, t) :: r)
| L_pos n l r : listed l r -> listed (AddDouble n PosInf :: l) ((n, [105; 110; 102; 105; 110; 105; 116; 121]) :: r)
| L_neg n l r : listed l r -> listed (AddDouble n NegInf :: l) ((n, [45; 105; 110; 102; 105; 110; 105; 116; 121]) :: r)
| L_nan n l r : listed l r -> listed (AddDouble n NaN :: l) r
| L_string n s t l r : denotes_all t s -> one_line t -> listed l r -> listed (AddString n s :: l) ((n, 34 :: t ++ [34]) :: r).
