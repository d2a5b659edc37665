(** Model of src/Common/medianfilter.cpp.  An element (float) is a real number.  An allocated array is a function from
    indices to values with a size; its elements are undefined until written.  Accessing an array outside its bounds
    and reading an element before it is written are undefined behaviour. *)
From Coq Require Import Reals.
From Verif Require Import Base.
Open Scope Z_scope.

Definition mem := Z -> option R.
Definition fresh : mem := fun _ => None.
Definition wr (size : Z) (m : mem) (i : Z) (v : R) : res mem :=
  if (0 <=? i) && (i <? size) then Ok (fun k => if k =? i then Some v else m k) else UB.
Definition rd (size : Z) (m : mem) (i : Z) : res R :=
  if (0 <=? i) && (i <? size) then match m i with Some v => Ok v | None => UB end else UB.
(** an input array of known content *)
Definition ofList (l : list R) : mem := fun i => if 0 <=? i then nth_error l (Z.to_nat i) else None.

(** for (i = s; i < s + n; ++i) f(i) *)
Fixpoint loop {S : Type} (n : nat) (i : Z) (f : Z -> S -> res S) (s : S) : res S :=
  match n with O => Ok s | Datatypes.S n => s' <- f i s ;; loop n (i + 1) f s' end.
Definition for_to {S : Type} (lo hi : Z) (f : Z -> S -> res S) (s : S) : res S := loop (Z.to_nat (hi - lo)) lo f s.

(** memcpy of n elements to [dst] from [src] of a source array *)
Definition copy (size : Z) (dst n : Z) (src : mem -> Z -> res R) (m : mem) : res mem :=
  for_to 0 n (fun k m => v <- src m k ;; wr size m (dst + k) v) m.

(** ** Ordering of the first positions of the window: medianfilter.cpp 23-35 (five elements, three positions) and
    98-110. *)
Definition put (w : list R) (i : nat) (v : R) : list R := firstn i w ++ v :: skipn (S i) w.
Definition find_min (w : list R) (j : nat) : nat :=
  fold_left (fun min l => if Rlt_dec (nth l w 0%R) (nth min w 0%R) then l else min) (seq (j + 1) (length w - (j + 1))) j.
Definition order_step (w : list R) (j : nat) : list R :=
  let min := find_min w j in
  let temp := nth j w 0%R in
  put (put w j (nth min w 0%R)) min temp.
Definition order_first (w : list R) (cnt : nat) : list R := fold_left order_step (seq 0 cnt) w.

Fixpoint collect {A} (f : A -> res R) (l : list A) : res (list R) :=
  match l with [] => Ok [] | a :: l => v <- f a ;; vs <- collect f l ;; Ok (v :: vs) end.

(** ** 2D filter *)
(** _medianfilter, medianfilter.cpp 81-115; NX and NY are the sizes of the extended image.  The window array of
    ksize^2 elements is filled with the elements read; if they are fewer, the ordering reads undefined elements. *)
Definition filter2D (imsize : Z) (image : mem) (rsize : Z) (NX NY ksize : Z) (result : mem) : res mem :=
  let ksize2 := ksize * ksize in
  let kBoundary := Z.quot (ksize - 1) 2 in
  for_to kBoundary (NY - kBoundary) (fun iY result =>
    for_to kBoundary (NX - kBoundary) (fun iX result =>
      let is := zseq (iX - kBoundary) (Z.to_nat (2 * kBoundary + 1)) in
      let js := zseq (iY - kBoundary) (Z.to_nat (2 * kBoundary + 1)) in
      window <- collect (fun p => rd imsize image (fst p * NX + snd p)) (list_prod js is) ;;
      if negb (Z.of_nat (length window) =? ksize2) then UB else
      let window := order_first window (Z.to_nat (Z.quot (ksize2 + 1) 2)) in
      wr rsize result ((iY - kBoundary) * (NX - 2 * kBoundary) + iX - kBoundary) (nth (Z.to_nat (Z.quot (ksize2 - 1) 2)) window 0%R))
    result) result.

(** the image extension, medianfilter.cpp 131-162 *)
Definition extend2D (image : list R) (NX NY kBoundary fillType : Z) : res mem :=
  let W := NX + 2 * kBoundary in
  let size := W * (NY + 2 * kBoundary) in
  let isize := Z.of_nat (length image) in
  let im := ofList image in
  ext <- for_to 0 NY (fun i ext =>
    ext <- copy size (W * (i + kBoundary) + kBoundary) NX (fun _ k => rd isize im (NX * i + k)) ext ;;
    if fillType =? 1 then
      for_to 0 kBoundary (fun j ext =>
        a <- rd isize im (NX * i) ;;
        ext <- wr size ext (W * (i + kBoundary) + j) a ;;
        b <- rd isize im (NX * (i + 1) - 1) ;;
        wr size ext (W * (i + kBoundary + 1) - j - 1) b) ext
    else
      for_to 0 kBoundary (fun j ext =>
        ext <- wr size ext (W * (i + kBoundary) + j) 0%R ;;
        wr size ext (W * (i + kBoundary + 1) - j - 1) 0%R) ext) fresh ;;
  for_to 0 kBoundary (fun j ext =>
    if fillType =? 1 then
      ext <- copy size (W * j) W (fun m k => rd size m (W * kBoundary + k)) ext ;;
      copy size (W * (NY + kBoundary + j)) W (fun m k => rd size m (W * (NY + kBoundary - 1) + k)) ext
    else
      for_to 0 W (fun i ext =>
        ext <- wr size ext (W * j + i) 0%R ;;
        wr size ext (W * (NY + kBoundary + j) + i) 0%R) ext) ext.

(** medianfilter, medianfilter.cpp 123-166, with a result array of NX * NY elements; then, as in the callers
    (Common.hpp 431-433), all elements of the result are read. *)
Definition medianfilter2D (image : list R) (NX NY ksize fillType : Z) : res (list R) :=
  let kBoundary := Z.quot (ksize - 1) 2 in
  if (NX <? 1) || (NY <? 1) then UB (* nothing is written and the result is read uninitialised *) else
  ext <- extend2D image NX NY kBoundary fillType ;;
  result <- filter2D ((NX + 2 * kBoundary) * (NY + 2 * kBoundary)) ext (NX * NY) (NX + 2 * kBoundary) (NY + 2 * kBoundary) ksize fresh ;;
  collect (fun i => rd (NX * NY) result i) (zseq 0 (Z.to_nat (NX * NY))).

(** ** 1D filter: medianfilter.cpp 15-41 and 47-73, result read as in Common.hpp 454-458. *)
Definition filter1D (ssize : Z) (signal : mem) (rsize NX ksize : Z) (result : mem) : res mem :=
  for_to 2 (NX - 2) (fun i result =>
    window <- collect (fun j => rd ssize signal (i - 2 + j)) (zseq 0 5) ;;
    let window := order_first window 3 in
    wr rsize result (i - 2) (nth 2 window 0%R)) result.
Definition medianfilter1D (signal : list R) (ksize : Z) : res (list R) :=
  let NX := Z.of_nat (length signal) in
  let sg := ofList signal in
  if NX <? 1 then Ok [] else
  if NX =? 1 then a <- rd NX sg 0 ;; Ok [a] else
  let size := NX + 4 in
  ext <- copy size 2 NX (fun _ k => rd NX sg k) fresh ;;
  ext <- for_to 0 2 (fun i ext =>
    a <- rd NX sg (1 - i) ;; ext <- wr size ext i a ;;
    b <- rd NX sg (NX - 1 - i) ;; wr size ext (NX + 2 + i) b) ext ;;
  result <- filter1D size ext NX (NX + 4) ksize fresh ;;
  collect (fun i => rd NX result i) (zseq 0 (length signal)).
