(** Histograms of values: sparta::HistogramBase, with HistogramStandalone and
    HistogramTreeNode, and sparta::EnumHistogram.

    Sources (below /repo/sparta/sparta/statistics): Histogram.hpp ("hi"),
    EnumHistogram.hpp ("eh").

    Simplifications: counters are their 64-bit values; names of counters are
    the pair of numbers written into them; the statistics computed as double
    (probabilities, mean, deviation) are left out. *)
From Coq Require Import NArith List Bool.
From Verif Require Import MathUtilsModel StatModel LayoutModel.
Import ListNotations.
Open Scope N_scope.

(** The constant members (hi 360-362, 377, 382): lower_val_, upper_val_,
    num_vals_per_bin_, num_bins_, idx_shift_amount_. *)
Record hp := mkHp { p_lo : N; p_up : N; p_per : N; p_bins : N; p_shift : N }.

(** The constructor of HistogramBase (hi 53-70). The number of bins goes
    through a double; it comes back unchanged exactly if it is below 2^32, as
    num_bins_ has 32 bits. [None]: a failed assertion, or a number of bins so
    near to 2^64 that the conversion of the double has no meaning. *)
Definition h_new (lo up per : N) : option hp :=
  if negb (lo <? up) then None
  else if negb (is_power_of_2 per) then None
  else let q := w64 ((up - lo) / per + 1) in
    if q <? 2 ^ 32 then Some (mkHp lo up per q (floor_log2_32 per)) else None.

(** The members that change (hi 364-368, 374-375): total_values_,
    running_sum_, underflow_bin_, overflow_bin_, bin_, max_counters_ and
    max_values_, in order. *)
Record hs := mkHs {
  v_total : N; v_sum : N; v_uf : N; v_of : N;
  v_bin : list N; v_ctr : list N; v_max : list N }.

(** initializeStats_ (hi 266-356), the counters. *)
Definition h_begin (p : hp) (num_max : nat) : hs :=
  mkHs 0 0 0 0 (repeat 0 (N.to_nat (p_bins p))) (repeat 0 num_max) (repeat 0 num_max).

(** The numbers written into the names of the bins (hi 300-321). *)
Fixpoint labels_ (p : hp) (k : nat) (start fin : N) : list (N * N) :=
  match k with
  | O => []
  | S k' => let e := if p_up p <? fin then p_up p else fin in
            (start, e) :: labels_ p k' (w64 (e + 1)) (w64 (e + p_per p))
  end.
(** All of them (hi 300-321). The subtraction of 1 may borrow only if
    num_vals_per_bin_ were 0. *)
Definition h_labels (p : hp) : list (N * N) :=
  labels_ p (N.to_nat (p_bins p)) (p_lo p) (w64 (p_lo p + p_per p - 1)).

(** multiset::insert (hi 222): behind the elements that are not greater. *)
Fixpoint put_in (v : N) (l : list N) : list N :=
  match l with
  | [] => [v]
  | x :: r => if v <? x then v :: l else x :: put_in v r
  end.

(** The values written over the counters one by one (hi 224-229); [None]: the
    assertion that there are enough counters. *)
Fixpoint copy_over (vs ctrs : list N) : option (list N) :=
  match vs, ctrs with
  | [], _ => Some ctrs
  | v :: r, c :: cs => option_map (cons v) (copy_over r cs)
  | _ :: _, [] => None
  end.

(** updateMaxValues_ (hi 212-230); [None]: there is no first element, or the
    assertion. *)
Definition up_max (v : N) (s : hs) : option hs :=
  match v_max s with
  | [] => None
  | m :: r =>
    if v <=? m then Some s
    else let ms := put_in v r in
         match copy_over ms (v_ctr s) with
         | Some cs => Some (mkHs (v_total s) (v_sum s) (v_uf s) (v_of s) (v_bin s) cs ms)
         | None => None
         end
  end.

(** addValue (hi 79-98); [None]: bin_.at throws, or updateMaxValues_ fails. *)
Definition h_value (p : hp) (v : N) (s : hs) : option hs :=
  let t := w64 (v_total s + 1) in
  let a := w64 (v_sum s + v) in
  let s1 :=
    if v <? p_lo p then Some (mkHs t a (w64 (v_uf s + 1)) (v_of s) (v_bin s) (v_ctr s) (v_max s))
    else if p_up p <? v then Some (mkHs t a (v_uf s) (w64 (v_of s + 1)) (v_bin s) (v_ctr s) (v_max s))
    else match bump (v_bin s) (N.to_nat (N.shiftr (v - p_lo p) (p_shift p) mod 2 ^ 32)) with
         | Some b => Some (mkHs t a (v_uf s) (v_of s) b (v_ctr s) (v_max s))
         | None => None
         end in
  match s1 with
  | None => None
  | Some s1 => match v_ctr s1 with [] => Some s1 | _ => up_max v s1 end
  end.

(** Many values. *)
Fixpoint h_values (p : hp) (vs : list N) (s : hs) : option hs :=
  match vs with
  | [] => Some s
  | v :: r => match h_value p v s with Some s' => h_values p r s' | None => None end
  end.

(** getDisplayStringCumulative_ (hi 236-256), the lines for the bins: the two
    numbers and the running sum. *)
Fixpoint cumul_ (p : hp) (bins : list N) (fin sum : N) : list (N * N * N) :=
  match bins with
  | [] => []
  | b :: r => let e := if p_up p <? fin then p_up p else fin in
              let sum' := w64 (sum + b) in
              (p_lo p, e, sum') :: cumul_ p r (w64 (e + p_per p)) sum'
  end.
(** The whole text (hi 236-256): the underflow, the bins, the last sum. *)
Definition h_cumul (p : hp) (s : hs) : N * list (N * N * N) * N :=
  (v_uf s, cumul_ p (v_bin s) (w64 (p_lo p + p_per p - 1)) (v_uf s),
   w64 (fold_left (fun a b => w64 (a + b)) (v_bin s) (v_uf s) + v_of s)).

(** ** EnumHistogram *)

(** The constructor (eh 76-104), from the numbers of the constants __FIRST and
    __LAST. *)
Definition e_new (first last : N) : option hp := h_new first (w64 (last + (2 ^ 64 - 1))) 1.

(** The counters (eh 86-89, 106-138). *)
Definition e_begin (p : hp) : hs := h_begin p 0.

(** addValue (eh 156-171). *)
Definition e_value (p : hp) (v : N) (s : hs) : option hs :=
  let t := w64 (v_total s + 1) in
  if v <? p_lo p then Some (mkHs t (v_sum s) (w64 (v_uf s + 1)) (v_of s) (v_bin s) (v_ctr s) (v_max s))
  else if p_up p <? v then Some (mkHs t (v_sum s) (v_uf s) (w64 (v_of s + 1)) (v_bin s) (v_ctr s) (v_max s))
  else match bump (v_bin s) (N.to_nat (N.shiftr (v - p_lo p) (p_shift p) mod 2 ^ 32)) with
       | Some b => Some (mkHs t (v_sum s) (v_uf s) (v_of s) b (v_ctr s) (v_max s))
       | None => None
       end.

(** Many values. *)
Fixpoint e_values (p : hp) (vs : list N) (s : hs) : option hs :=
  match vs with
  | [] => Some s
  | v :: r => match e_value p v s with Some s' => e_values p r s' | None => None end
  end.
