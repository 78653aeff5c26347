(** Model of theseus/third_party/lml.py (the soft top-N selection) and of one
    iteration of theseus/optimizer/nonlinear/dcem.py, for one batch element.
    [nx] numbers x 0, ..., x (nx - 1); raised exceptions are [None]. *)
From Coq Require Import Reals List Arith Bool.
From Verif Require Import RSum.
Import ListNotations.
Local Open Scope R_scope.

(** torch.sigmoid *)
Definition sigmoid (x : R) : R := / (1 + exp (- x)).
Definition below (a b : R) : bool := if Rlt_dec a b then true else false.
(** torch.sort(descending=True) of the entries *)
Fixpoint insert_desc (a : R) (l : list R) : list R := match l with
  | [] => [a] | b :: r => if below a b then b :: insert_desc a r else a :: l end.
Definition sort_desc (l : list R) : list R := fold_right insert_desc [] l.
Definition entries_of (nx : nat) (x : nat -> R) : list R := map x (seq 0 nx).

(** lml.py:106-107: sigmoid(x + nu).sum() - N *)
Definition excess (N nx : nat) (x : nat -> R) (nu : R) : R := rsum nx (fun i => sigmoid (x i + nu)) - INR N.
(** lml.py:105-122, one iteration for one active row: the new (nu_lower, nu_upper).  If no iterate is negative the row is in J: it takes
    the first interval, and nu_lower is lowered by 7 (the mask J indexes nu_lower, which is right if all rows are active).  If all are,
    gather is called with an index out of range *)
Definition lml_iter (branch N nx : nat) (x : nat -> R) (nu_lower nu_upper : R) : option (R * R) :=
  let r := nu_upper - nu_lower in
  let nus k := r * (INR k / INR (branch - 1)) + nu_lower in
  let negative := length (filter (fun k => below (excess N nx x (nus k)) 0) (seq 0 branch)) in
  match negative with
  | O => Some (nus 0%nat - 7, nus 1%nat)
  | S i_lower => if Nat.ltb (S i_lower) branch then Some (nus i_lower, nus (S i_lower)) else None
  end.
(** lml.py:96-122: the loop; the result is nu_lower and the last r *)
Fixpoint lml_loop (n_iter branch N nx : nat) (eps : R) (x : nat -> R) (nu_lower nu_upper r : R) : option (R * R) :=
  match n_iter with
  | O => Some (nu_lower, r)
  | S n => let r := nu_upper - nu_lower in
           if below eps r then match lml_iter branch N nx x nu_lower nu_upper with
                               | Some (lo, hi) => lml_loop n branch N nx eps x lo hi r
                               | None => None
                               end
           else Some (nu_lower, r)
  end.
(** lml.py:55-140 (LML_Function.forward), for N > 0 *)
Definition lml_forward (n_iter branch N nx : nat) (eps : R) (x : nat -> R) : option (nat -> R) :=
  if Nat.leb nx N then Some (fun _ => (1 - / 100000) * 1)
  else
    let x_sorted := sort_desc (entries_of nx x) in
    let nu_lower := - nth (N - 1) x_sorted 0 - 7 in
    let nu_upper := - nth N x_sorted 0 + 7 in
    match lml_loop n_iter branch N nx eps x nu_lower nu_upper 0 with
    | Some (lo, r) => let nu := lo + r / 2 in Some (fun i => sigmoid (x i + nu))
    | None => None
    end.
(** lml.py:143-177 (backward) *)
Definition lml_backward (N nx : nat) (y grad_output : nat -> R) : nat -> R :=
  if Nat.leb nx N then fun _ => 0
  else
    let Hinv i := 1 / (1 / y i + 1 / (1 - y i)) in
    let dnu := rsum nx (fun i => Hinv i * grad_output i) / rsum nx Hinv in
    fun i => - Hinv i * (- grad_output i + dnu).

(** ** dcem.py *)
(** dcem.py:118-123: mean, standard deviation (torch.std: unbiased) and normalization of the errors of the samples; for n >= 2
    (torch.std of one sample is nan) *)
Definition mean (n : nat) (f : nat -> R) : R := rsum n f / INR n.
Definition std (n : nat) (f : nat -> R) : R := sqrt (rsum n (fun i => (f i - mean n f) * (f i - mean n f)) / (INR n - 1)).
Definition normalized (n : nat) (f : nat -> R) (i : nat) : R := (f i - mean n f) / (std n f + / 1000000).
(** torch.softmax *)
Definition softmax (n : nat) (f : nat -> R) (i : nat) : R := exp (f i) / rsum n (fun k => exp (f k)).
(** dcem.py:136-141: fX.argsort()[: n_elite] scattered; [argsort] is a permutation of the sample indices *)
Definition hard_weights (n_elite : nat) (argsort : list nat) (i : nat) : R :=
  if existsb (Nat.eqb i) (firstn n_elite argsort) then 1 else 0.
(** dcem.py:117-142: the weights "indexes" and eps; [temp] = None stands for None or inf *)
Definition cem_weights (n_iter branch n_sample n_elite : nat) (temp : option R) (normalize : bool) (lml_eps : R) (argsort : list nat)
  (fX : nat -> R) : option ((nat -> R) * R) :=
  match temp with
  | Some temp =>
      let _fX := if normalize then normalized n_sample fX else fX in
      if Nat.eqb n_elite 1 then Some (softmax n_sample (fun i => - _fX i * temp), 0)
      else match lml_forward n_iter branch n_elite n_sample lml_eps (fun i => - _fX i * temp) with
           | Some y => Some (y, 0)
           | None => None
           end
  | None => Some (hard_weights n_elite argsort, / 10 ^ 10)
  end.
(** dcem.py:149-154: the new mu and sigma, component j; [X i j] is component j of sample i *)
Definition cem_mu (n_sample n_elite : nat) (w : nat -> R) (X : nat -> nat -> R) (j : nat) : R :=
  rsum n_sample (fun i => w i * X i j) / INR n_elite.
Definition cem_sigma (n_sample n_elite : nat) (w : nat -> R) (eps : R) (X : nat -> nat -> R) (j : nat) : R :=
  sqrt (rsum n_sample (fun i => w i * ((X i j - cem_mu n_sample n_elite w X j) * (X i j - cem_mu n_sample n_elite w X j))) / INR n_elite) + eps.
(** dcem.py:94-158 (_CEM_step): the new mean and standard deviation, given the samples [X], their errors [fX] and the order argsort
    puts them in; lb and ub are stored by the constructor (dcem.py:69-70) and not used *)
Definition cem_step (lb ub : option R) (n_iter branch n_sample n_elite : nat) (temp : option R) (normalize : bool) (lml_eps : R)
  (argsort : list nat) (X : nat -> nat -> R) (fX : nat -> R) : option ((nat -> R) * (nat -> R)) :=
  match cem_weights n_iter branch n_sample n_elite temp normalize lml_eps argsort fX with
  | Some (w, eps) => Some (cem_mu n_sample n_elite w X, cem_sigma n_sample n_elite w eps X)
  | None => None
  end.
(** dcem.py:78-84 (_mu_vec_to_dict): the columns of mu, cut by the dofs of the variables in the ordering *)
Fixpoint mu_vec_to_dict {A} (dofs : list nat) (mu : list A) : list (list A) := match dofs with
  | [] => []
  | d :: r => firstn d mu :: mu_vec_to_dict r (skipn d mu)
  end.
