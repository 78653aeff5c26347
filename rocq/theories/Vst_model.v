(** Model of theseus/_version.py 12-35: comparing version strings, and the warning on import.
    Simplifications: characters are ASCII ([\d] also matches the decimal digits of other scripts);
    Python's limit of 4300 digits for [int] of a string is not modelled (such a numeral is refused there). *)
From Coq Require Import List Arith NArith Bool Ascii String Lia.
Import ListNotations.

(** [\d] *)
Definition is_digit (c : ascii) : bool := let n := nat_of_ascii c in (48 <=? n) && (n <=? 57).
Definition is_dot (c : ascii) : bool := (nat_of_ascii c =? 46)%nat.

(** _version.py 15-16: [re.match(r"^[\d.]+", s)]: the longest prefix of digits and dots. *)
Fixpoint take_vchars (s : list ascii) : list ascii :=
  match s with
  | c :: r => if is_digit c || is_dot c then c :: take_vchars r else []
  | [] => []
  end.
Definition re_match (s : list ascii) : option (list ascii) :=
  match take_vchars s with [] => None | p => Some p end.

(** [str.split(".")] *)
Fixpoint split_dot (s : list ascii) : list (list ascii) :=
  match s with
  | [] => [[]]
  | c :: r => if is_dot c then [] :: split_dot r
              else match split_dot r with h :: t => (c :: h) :: t | [] => [[c]] end
  end.

(** [int(x)] of a string of digits; [int("")] raises. *)
Definition py_int (s : list ascii) : option N :=
  match s with
  | [] => None
  | _ => Some (fold_left (fun a c => 10 * a + N.of_nat (nat_of_ascii c - 48))%N s 0%N)
  end.
Fixpoint map_int (l : list (list ascii)) : option (list N) :=
  match l with
  | [] => Some []
  | s :: r => match py_int s, map_int r with Some n, Some t => Some (n :: t) | _, _ => None end
  end.

(** _version.py 14-22 [_as_tuple]: any exception becomes a ValueError ([None]); [match.group()] of no match
    is one of them. *)
Definition as_tuple (s : list ascii) : option (list N) :=
  match re_match s with
  | None => None
  | Some p => map_int (firstn 3 (split_dot p))
  end.

(** _version.py 24-25: unpacking into three names; another length is a ValueError too. *)
Definition unpack3 (t : list N) : option (N * N * N) :=
  match t with [x; y; z] => Some (x, y, z) | _ => None end.

(** _version.py 13-26 [lt_version]; [None]: ValueError. *)
Definition lt_version (v1 v2 : string) : option bool :=
  match as_tuple (list_ascii_of_string v1) with
  | None => None
  | Some t1 =>
    match unpack3 t1 with
    | None => None
    | Some (x1, y1, z1) =>
      match as_tuple (list_ascii_of_string v2) with
      | None => None
      | Some t2 =>
        match unpack3 t2 with
        | None => None
        | Some (x2, y2, z2) =>
          Some ((x1 <? x2) || ((x1 =? x2) && (y1 <? y2))
                || ((x1 =? x2) && (y1 =? y2) && (z1 <? z2)))%N
        end
      end
    end
  end.

(** _version.py 29-34: importing the package with torch at version [v]: [None] the import raises,
    [Some true] a FutureWarning. *)
Definition import_warns (v : string) : option bool := lt_version v "2.0.0".
