(** Independent specification of parameter configuration files. *)
Require Import ZArith List Bool.
From Verif Require Import Base StrModel CmdModel CmdSpec ParamModel.
Import ListNotations.
Open Scope Z_scope.

(** the arguments a value stands for under a flag: a true Boolean is the flag, a false one the negated flag if there is
    one, a string or number the flag and the text, an array the arguments of its elements one after the other *)
Inductive means (neg : str -> option str) (flag : str) : pval -> list str -> Prop :=
| m_true : means neg flag (PBool true) [flag]
| m_neg : forall f, neg flag = Some f -> means neg flag (PBool false) [f]
| m_false : neg flag = None -> means neg flag (PBool false) []
| m_str : forall s, means neg flag (PStr s) [flag; s]
| m_num : forall s, means neg flag (PNum s) [flag; s]
| m_arr : forall l a, means_all neg flag l a -> means neg flag (PArr l) a
with means_all (neg : str -> option str) (flag : str) : list pval -> list str -> Prop :=
| ma_nil : means_all neg flag [] []
| ma_cons : forall v l a b, means neg flag v a -> means_all neg flag l b -> means_all neg flag (v :: l) (a ++ b).
(** the flag of a name: with two dashes in front unless it starts with a dash *)
Definition flag_of (n f : str) : Prop := (exists r, n = 45 :: r) /\ f = n \/ (~ exists r, n = 45 :: r) /\ f = 45 :: 45 :: n.
(** the arguments an entry stands for; a nested object stands for its flag and one text, which splits into the
    arguments of its entries *)
Inductive stands : (str -> option str) -> pitem -> list str -> Prop :=
| s_val : forall neg n f v a, flag_of n f -> means neg f v a -> stands neg (Assign n v) a
| s_obj : forall neg n f l t a, flag_of n f -> stands_all l a -> parse_cmd_line t = a -> stands neg (Nested n l) [f; t]
with stands_all : list pitem -> list str -> Prop :=
| sa_nil : stands_all [] []
| sa_cons : forall i l a b, stands (fun _ => None) i a -> stands_all l b -> stands_all (i :: l) (a ++ b).
Inductive file_args (neg : str -> option str) : list pitem -> list str -> Prop :=
| fa_nil : file_args neg [] []
| fa_cons : forall i l a b, stands neg i a -> file_args neg l b -> file_args neg (i :: l) (a ++ b).

(** nested objects for which the text can be split again: names, strings and numbers without blank, double quote,
    backslash and control characters, no arrays, at least one entry that is not a false Boolean in each object, and at most k levels *)
Definition speaks (i : pitem) : Prop := forall n, i <> Assign n (PBool false).
Definition clean (s : str) : Prop := forall x, In x s -> x <> 32 /\ x <> 34 /\ x <> 92 /\ ~ is_ctl x.
Fixpoint simple (k : nat) (i : pitem) : Prop :=
  match i with
  | Assign n (PBool _) => clean n
  | Assign n (PStr s) | Assign n (PNum s) => clean n /\ clean s
  | Assign n _ => False
  | Nested n l => clean n /\ Exists speaks l /\
      match k with O => False | S k' => (fix all l := match l with [] => True | e :: r => simple k' e /\ all r end) l end
  end.

(** * Replacing the references to parameter files *)
Section Inline.
Variable read : str -> perr + list str.
Variable path : str -> str -> str.
Variable dir : str -> str.
(** an argument that is no reference and does not touch the working directory *)
Definition ordinary (a : str) : Prop := a <> f_param /\ a <> f_nopush /\ a <> f_push /\ a <> f_pop /\ is_mpc a = false.
(** [inlined d args out fs]: replacing each reference by the arguments of the file, and so on, gives out: each argument
    with the directory in which it is to be read; fs: the files read, in this order.  Arguments of a file are read in
    the directory of the file (unless --param-file-no-push is used). *)
Inductive inlined : str -> list str -> list (str * str) -> list str -> Prop :=
| in_nil : forall d, inlined d [] [] []
| in_arg : forall d a r o fs, ordinary a -> inlined d r o fs -> inlined d (a :: r) ((d, a) :: o) fs
| in_file : forall d f r vs o1 o2 fs1 fs2, read (path f d) = inr vs ->
    inlined (dir (path f d)) vs o1 fs1 -> inlined d r o2 fs2 -> inlined d (f_param :: f :: r) (o1 ++ o2) (path f d :: fs1 ++ fs2)
| in_nopush : forall d f r vs o1 o2 fs1 fs2, read (path f d) = inr vs ->
    inlined d vs o1 fs1 -> inlined d r o2 fs2 -> inlined d (f_nopush :: f :: r) (o1 ++ o2) (path f d :: fs1 ++ fs2)
| in_mpc : forall d f r vs o1 o2 fs1 fs2, f <> f_param -> f <> f_nopush -> f <> f_push -> f <> f_pop -> is_mpc f = true -> read (path f d) = inr vs ->
    inlined (dir (path f d)) vs o1 fs1 -> inlined d r o2 fs2 -> inlined d (f :: r) (o1 ++ o2) (path f d :: fs1 ++ fs2).
(** a list of arguments that does not touch the working directory and does not end in an unfinished reference *)
Inductive complete : list str -> Prop :=
| c_nil : complete []
| c_ref : forall a f r, a = f_param \/ a = f_nopush -> f <> f_push -> f <> f_pop -> complete r -> complete (a :: f :: r)
| c_arg : forall a r, a <> f_param -> a <> f_nopush -> a <> f_push -> a <> f_pop -> complete r -> complete (a :: r).
Definition complete_files : Prop := forall p vs, read p = inr vs -> complete vs.
(** only finitely many files can be read *)
Definition finite_files : Prop := exists files, forall p vs, read p = inr vs -> In p files.
End Inline.
