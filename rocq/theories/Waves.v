(** Model of /repo/pyphs/misc/signals/waves.py (wavwrite, wavread).
    The float operations go through a rounding function [rnd]: the identity
    gives exact arithmetic, and binary64 rounding the machine.  The file is
    the list of the bytes of its frames; the wave header (python modules wave
    and scipy.io.wavfile) is not modelled.  Resampling (L60-62, scipy) is not
    modelled: [fs_out] is None or [fs_sig]. *)
From Coq Require Import List ZArith Bool Reals Lia Lra.
From Verif Require Import Py.
Import ListNotations.
Local Open Scope list_scope.
Local Open Scope R_scope.

(** [int(x)]: truncation toward zero. *)
Definition trunc (x : R) : Z :=
  if Rle_dec 0 x then Int_part x else (- Int_part (- x))%Z.

(** waves.py L15 *)
Definition maxvol : R := 32767.

(** [pack('h', k)], two bytes, little end first; struct.error out of range. *)
Definition pack_h (k : Z) : result (list Z) :=
  if ((-32768 <=? k) && (k <=? 32767))%Z
  then Ok [ (k mod 256)%Z; ((k / 256) mod 256)%Z ]
  else Err GenericException.

(** One frame of 16 bits as wavfile.read gives it. *)
Definition unpack_h (lo hi : Z) : Z :=
  let k := (lo + 256 * hi)%Z in
  if (k <? 32768)%Z then k else (k - 65536)%Z.

Fixpoint unpack_all (bytes : list Z) : list Z :=
  match bytes with
  | lo :: hi :: rest => unpack_h lo hi :: unpack_all rest
  | _ => []
  end.

(** The argument [normalize] of wavwrite: None, False and anything that is
    neither a float nor True give the scale 1. *)
Inductive normalize_arg := NNone | NTrue | NFloat (s : R).

Section Rounded.
Variable rnd : R -> R.

(** waves.py L53-58: [nfades] is [int(timefades*fs_sig)]; the signal is left
    as it is when it is too short. *)
Definition fades (nfades nsig : nat) : list R :=
  map (fun n => rnd (INR n / INR nfades)) (seq 0 nfades)
  ++ repeat 1 (nsig - 2 * nfades)
  ++ map (fun n => rnd ((INR nfades - 1 - INR n) / INR nfades))
         (seq 0 nfades).

Definition fade (nfades : nat) (sig : list R) : list R :=
  if (2 * nfades <=? length sig)%nat
  then map (fun p => rnd (fst p * snd p))
           (combine sig (fades nfades (length sig)))
  else sig.

(** [np.max(np.abs(sig))]; ValueError for an empty signal. *)
Fixpoint max_abs (sig : list R) : R :=
  match sig with
  | [] => 0
  | v :: sig' => Rmax (Rabs v) (max_abs sig')
  end.

(** waves.py L70-78 *)
Definition scale_of (n : normalize_arg) (sig : list R) : result R :=
  match n with
  | NFloat s => Ok s
  | NTrue =>
      match sig with
      | [] => Err ValueError
      | _ => Ok (if Req_EM_T (max_abs sig) 0 then 1 else max_abs sig)
      end
  | NNone => Ok 1
  end.

(** waves.py L80-82; division of floats by zero raises. *)
Fixpoint frames (scale : R) (sig : list R) : result (list Z) :=
  match sig with
  | [] => Ok []
  | v :: sig' =>
      if Req_EM_T scale 0 then Err GenericException
      else
        do b <- pack_h (trunc (rnd (rnd (maxvol * v) / scale)));
        do bs <- frames scale sig';
        Ok (b ++ bs)
  end.

(** waves.py L45-83 *)
Definition wavwrite (sig : list R) (n : normalize_arg) (nfades : nat)
  : result (list Z) :=
  let sig := fade nfades sig in
  do scale <- scale_of n sig;
  frames scale sig.

(** waves.py L18-42 *)
Definition wavread (bytes : list Z) : list R :=
  map (fun k => rnd (IZR k / maxvol)) (unpack_all bytes).

End Rounded.
