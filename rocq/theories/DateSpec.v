(** * DateSpec: calendar arithmetic and the two date formats, written without the model. *)
From Verif Require Import Base Parsers FieldSpec.

(** ** The Gregorian calendar *)
Local Open Scope Z_scope.
Definition leap (y : Z) : bool := (y mod 4 =? 0) && (negb (y mod 100 =? 0) || (y mod 400 =? 0)).
Definition days_in_year (y : Z) : Z := if leap y then 366 else 365.
Definition days_in_month (y m : Z) : Z :=
  if m =? 2 then (if leap y then 29 else 28)
  else if (m =? 4) || (m =? 6) || (m =? 9) || (m =? 11) then 30 else 31.
(** f a + f (a+1) + ... + f (a+n-1) *)
Fixpoint sum_from (f : Z -> Z) (a : Z) (n : nat) : Z :=
  match n with O => 0 | S n' => f a + sum_from f (a + 1) n' end.
(** days between 1970-01-01 and the given day (1970 <= y, 1 <= m) *)
Definition days_since_1970 (y m d : Z) : Z :=
  sum_from days_in_year 1970 (Z.to_nat (y - 1970)) + sum_from (days_in_month y) 1 (Z.to_nat (m - 1)) + (d - 1).

(** A parsed point in time; [frac] are the digits behind the decimal point of the seconds,
    [east] is the distance of the zone from UTC in seconds (positive: east of Greenwich). *)
Record stamp : Type := { yr : Z; mon : Z; dom : Z; hr : Z; mnt : Z; sec : Z; frac : text; east : Z }.

(** Seconds between 1970-01-01T00:00:00Z and that point in time; the code gives up (0) for years it
    has no table for. *)
Definition unix_seconds (s : stamp) : Z :=
  if (1970 <=? yr s) && (yr s <=? 2100)
  then 86400 * days_since_1970 (yr s) (mon s) (dom s) + 3600 * hr s + 60 * mnt s + sec s - east s
  else 0.
(** the first three digits of the fraction, missing ones being zero *)
Definition milliseconds (s : stamp) : Z := decimal (firstn 3 (frac s ++ L "000")).

(** ** Texts *)
(** digits with a value in the range.  No minimal and no maximal length: "no digit at all" has the value 0. *)
Definition numeral (lo hi v : Z) (t : text) : Prop := all_digits t /\ v = decimal t /\ lo <= v <= hi.

Local Close Scope Z_scope.

Definition fraction (fr t : text) : Prop :=
  (fr = [] /\ t = []) \/ (all_digits fr /\ t = L "." ++ fr).
Definition zone (z : Z) (t : text) : Prop :=
  (t = L "Z" /\ z = 0%Z) \/
  exists hs ms h m, numeral 0 23 h hs /\ numeral 0 59 m ms /\
    ((t = L "+" ++ hs ++ L ":" ++ ms /\ z = (3600 * h + 60 * m)%Z) \/
     (t = L "-" ++ hs ++ L ":" ++ ms /\ z = (- (3600 * h + 60 * m))%Z)).

(** 2026-11-18T00:50:01.5+01:00 *)
Definition rfc5424_text (s : stamp) (t : text) : Prop :=
  exists ys ms ds hs is ss fs zs,
    t = ys ++ L "-" ++ ms ++ L "-" ++ ds ++ L "T" ++ hs ++ L ":" ++ is ++ L ":" ++ ss ++ fs ++ zs /\
    all_digits ys /\ yr s = decimal ys /\
    numeral 1 12 (mon s) ms /\ numeral 1 31 (dom s) ds /\
    numeral 0 23 (hr s) hs /\ numeral 0 59 (mnt s) is /\ numeral 0 60 (sec s) ss /\
    fraction (frac s) fs /\ zone (east s) zs.

(** a blank or the end of the message *)
Definition blank_or_end (t : text) : Prop := t = [] \/ exists r, t = L " " ++ r.

(** English month names, three letters, in upper or lower case or any mixture *)
Definition month_names : list text :=
  map L ["jan"; "feb"; "mar"; "apr"; "may"; "jun"; "jul"; "aug"; "sep"; "oct"; "nov"; "dec"]%string.
Definition lower_of (c : ascii) : ascii :=
  if (65 <=? N_of_ascii c)%N && (N_of_ascii c <=? 90)%N then ascii_of_N (N_of_ascii c + 32) else c.
Definition month_name (m : Z) (t : text) : Prop :=
  exists k, nth_error month_names k = Some (map lower_of t) /\ m = (Z.of_nat k + 1)%Z.

(** Nov 18 2026 00:50:01: -- the year is optional and so is the colon; a colon is taken whenever there is
    one *)
Definition rfc3164_text (s : stamp) (t post : text) : Prop :=
  exists mn sp ds ye hs is ss co,
    t = mn ++ L " " ++ sp ++ ds ++ L " " ++ ye ++ hs ++ L ":" ++ is ++ L ":" ++ ss ++ co /\
    month_name (mon s) mn /\ (sp = [] \/ sp = L " ") /\ numeral 1 31 (dom s) ds /\
    (ye = [] \/ exists ys y, numeral 1971 2099 y ys /\ ye = ys ++ L " ") /\
    numeral 0 23 (hr s) hs /\ numeral 0 59 (mnt s) is /\ numeral 0 60 (sec s) ss /\
    ((co = L ":") \/ (co = [] /\ forall c r, post = c :: r -> ~ digit c /\ c <> ":"%char)).

(** ** What is delivered: the text, the seconds, or the milliseconds since 1970 *)
Definition date_value (f : fmt) (pre : text) (s : stamp) : json :=
  match f with
  | FmtString => JStr pre
  | FmtTsUxMs => JInt (unix_seconds s * 1000 + milliseconds s)%Z
  | _ => JInt (unix_seconds s)
  end.

(** The same month, day and time of the current year, UTC. *)
Definition this_year (e : env) (s : stamp) : stamp :=
  {| yr := cur_year e; mon := mon s; dom := dom s; hr := hr s; mnt := mnt s; sec := sec s; frac := []; east := 0 |}.
