(** Model of src/Permutations.h. The data are a list of [nat]. *)
From Verif Require Import Prelude Sort_Model.

(** src/Permutations.h:95-103: the constructor copies and sorts. *)
Definition perm_ctor (stdsort : list (nat * nat) -> list (nat * nat)) (orig : list nat)
  : res (list nat) :=
  do data <- forM (length orig) 0 (fun i d => do x <- vget orig i ;; vset d i x)
                  (repeat 0 (length orig)) ;;
  do (data, _) <- sort stdsort data (repeat 0 (length data)) 0 ;;
  Ok data.

(** src/Permutations.h:146-155 [largestk]; -1 is [None]. It is only called with
    non-empty data, so [data_.size() - 1] does not wrap. *)
Definition largestk (data : list nat) : res (option nat) :=
  forM (length data - 1) 0
    (fun i saved => do a <- vget data i ;;
                    do b <- vget data (i + 1) ;;
                    Ok (if a <? b then Some i else saved)) None.

(** src/Permutations.h:157-165 [largestl]. *)
Definition largestl (data : list nat) (k : nat) : res nat :=
  forM (length data) 0
    (fun i saved => do a <- vget data k ;;
                    do b <- vget data i ;;
                    Ok (if a <? b then i else saved)) 0.

(** [std::swap(data_[k], data_[l])] *)
Definition vswap (data : list nat) (k l : nat) : res (list nat) :=
  do a <- vget data k ;;
  do b <- vget data l ;;
  do data <- vset data k b ;;
  vset data l a.

(** src/Permutations.h:116-133 [increase]: returned flag and new data. The
    counter [c] is decremented after each write; it is read as
    [size - 1 - (i - (k+1))] (it never goes below k+1 while it is used). *)
Definition increase (data : list nat) : res (bool * list nat) :=
  if length data =? 0 then Ok (false, data)
  else
    do k <- largestk data ;;
    match k with
    | None => Ok (false, data)
    | Some k =>
      do l <- largestl data k ;;
      do data <- vswap data k l ;;
      let c0 := length data - 1 in
      if length data - 1 <=? k + 1 then Ok (true, data)
      else
        let tmp := data in
        do (data, c) <-
          forM (length data - (k + 1)) (k + 1)
            (fun i '(data, c) => do x <- vget tmp i ;;
                                 do data <- vset data c x ;;
                                 Ok (data, c - 1)) (data, c0) ;;
        Ok (true, data)
    end.
