(** Model of the mean, covariance, correlation, norm and error of vectors,
    anuga/utilities/numerical_tools.py.  Vectors are lists of real numbers;
    [None] is an exception. *)
From Coq Require Import Reals List Arith Bool.
From Verif Require Import RealLib.
Import ListNotations.
Local Open Scope R_scope.

(** [np.inner] of vectors of the same length *)
Fixpoint inner (x y : list R) : R :=
  match x, y with a :: x, b :: y => a * b + inner x y | _, _ => 0 end.
(** [mean], lines 131-134: the empty vector divides a float by 0 *)
Definition mean (x : list R) : option R :=
  match x with [] => None | _ => Some (Rsum x / INR (length x)) end.
(** [cov], lines 137-156 *)
Definition centre (m : R) (x : list R) : list R := map (fun a => a - m) x.
Definition cov (x y : list R) : option R :=
  if (length x =? length y)%nat then
    match mean x, mean y with
    | Some mx, Some my => Some (inner (centre mx x) (centre my y) / INR (length x))
    | _, _ => None
    end
  else None.
(** [corr], lines 209-226 *)
Definition corr (x y : list R) : option R :=
  match cov x x, cov y y with
  | Some varx, Some vary =>
      if Reqb varx 0 || Reqb vary 0 then Some 0
      else match cov x y with None => None | Some c => Some (c / sqrt (varx * vary)) end
  | _, _ => None
  end.
(** [norm], lines 200-206 *)
Definition norm (x : list R) : R := sqrt (inner x x).

(** A quotient of numpy floats, of which the first is not negative: dividing by
    0 raises nothing. *)
Inductive number := Num (r : R) | Inf | Nan.
Definition divide (e d : R) : number :=
  if Reqb d 0 then if Reqb e 0 then Nan else Inf else Num (e / d).
(** [x - y] of numpy: a vector of one entry is repeated *)
Fixpoint minus (x y : list R) : list R :=
  match x, y with a :: x, b :: y => (a - b) :: minus x y | _, _ => [] end.
Definition difference (x y : list R) : option (list R) :=
  if (length x =? length y)%nat then Some (minus x y)
  else match x, y with
       | _, [b] => Some (map (fun a => a - b) x)
       | [a], _ => Some (map (fun b => a - b) y)
       | _, _ => None
       end.
(** [max(abs(x))]: the empty vector raises *)
Definition max_abs (x : list R) : option R :=
  match x with [] => None | a :: x => Some (fold_left Rmax (map Rabs x) (Rabs a)) end.
(** [err], lines 159-197.  [None] for [y] is the default, the number 0: its norm
    is 0, its maximum raises, which is caught. *)
Definition err (x : list R) (y : option (list R)) (two relative : bool) : option number :=
  match (match y with None => Some x | Some y => difference x y end) with
  | None => None
  | Some d =>
      if two then
        if relative then Some (divide (norm d) (match y with None => 0 | Some y => norm y end)) else Some (Num (norm d))
      else
        match max_abs d with
        | None => None
        | Some e =>
            if relative then
              match (match y with None => None | Some y => max_abs y end) with None => Some (Num e) | Some n => Some (divide e n) end
            else Some (Num e)
        end
  end.
