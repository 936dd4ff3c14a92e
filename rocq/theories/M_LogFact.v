(** logFactorial (LogFactorial.py:35-120), in real numbers.  Left out: arrays of more dimensions. *)
From Coq Require Import List Arith ZArith Reals Bool.
Import ListNotations.
Local Open Scope R_scope.

(** logfact (64-97), in units of 10^-16 *)
Definition logfact : list Z := [
  0; 0; 6931471805599453; 17917594692280550; 31780538303479458; 47874917427820458;
  65792512120101012; 85251613610654147; 106046029027452509; 128018274800814709; 151044125730755159; 175023078458738865;
  199872144956618882; 225521638531234245; 251912211827386834; 278992713838408939; 306718601060806755; 335050734501368908;
  363954452080330526; 393398841871994946; 423356164607534851; 453801388984769076; 484711813518352201; 516066755677643698;
  547847293981123187; 580036052229805179; 612617017610020014; 645575386270063234; 678897431371815259; 712570389671680005;
  746582363488301581; 780922235533153071; 815579594561150287; 850544670175815156; 885808275421976816; 921361756036870929;
  957196945421432019; 993306124547874276; 1029681986145138097; 1066317602606434605; 1103206397147573909; 1140342117814616927;
  1177718813997450553; 1215330815154386244; 1253172711493568841; 1291239336391272161; 1329525750356163201; 1368027226373263829;
  1406739236482342790; 1445657439463448952; 1484777669517730487; 1524095925844973749; 1563608363030787984; 1603311282166309297;
  1643201122631951989; 1683274454484276816; 1723527971391628171; 1763958484069973736; 1804562914175437811; 1845338288614495070;
  1886281734236715977; 1927390472878448975; 1968661816728899794; 2010093163992815164; 2051681994826411994; 2093425867525368460;
  2135322414945632659; 2177369341139542200; 2219564418191303332; 2261905483237275973; 2304390435657769558; 2347017234428182633;
  2389783895618343195; 2432688490029827051; 2475729140961868779; 2518904022097231916; 2562211355500095351; 2605649409718632228;
  2649216497985528349; 2692910976510198680; 2736731242856937456; 2780675734403661750; 2824742926876304523; 2868931332954270488;
  2913239500942703444; 2957666013507606522; 3002209486470141542; 3046868567656687219; 3091641935801469003; 3136528299498790489;
  3181526396202092997; 3226634991267261512; 3271852877037752023; 3317178871969284728; 3362611819791984544; 3408150588707990210;
  3453794070622668642; 3499541180407702541; 3545390855194408459; 3591342053695754544]%Z.
(** What is passed: a whole number, a float, a list of numbers, or a (one dimensional) numpy array of numbers *)
Inductive arg := Int (k : Z) | Float (x : R) | AList (l : list R) | Array (l : list R).
Inductive answer := One (v : R) | Many (l : list R) | TypeError | IndexError.

(** 102, 118 *)
Definition stirling (k : R) : R := 9189385332046727 / 10 ^ 16 + (k + 5 / 10) * ln k - k + 1 / (12 * k).
(** python's and numpy's index into an array of n; None: IndexError *)
Definition index (n : nat) (k : Z) : option nat :=
  if (k <? - Z.of_nat n)%Z then None
  else if (k <? 0)%Z then Some (Z.to_nat (k + Z.of_nat n))
  else if (k <? Z.of_nat n)%Z then Some (Z.to_nat k) else None.
Definition lookup (k : Z) : option R :=
  match index 100 k with None => None | Some i => Some (IZR (nth i logfact 0%Z) / 10 ^ 16) end.
(** numpy.asarray( dtype=int ) *)
Definition truncate (x : R) : Z := if Rlt_dec x 0 then (- Int_part (- x))%Z else Int_part x.

(** 109-120: one item *)
Definition item (k : Z) : option R := if (k <? 100)%Z then lookup k else Some (stirling (IZR k)).
Fixpoint items (l : list Z) : option (list R) :=
  match l with
  | [] => Some []
  | k :: l => match item k, items l with Some v, Some r => Some (v :: r) | _, _ => None end
  end.
Definition several (l : list R) : answer := match items (map truncate l) with None => IndexError | Some r => Many r end.

(** logFactorial (35-120).  A float, a list or an array of one is no index into the list (100-101) *)
Definition logFactorial (a : arg) : answer :=
  match a with
  | Int k => if (k <? 100)%Z then match lookup k with None => IndexError | Some v => One v end else One (stirling (IZR k))
  | Float x => if Rlt_dec x 100 then TypeError else One (stirling x)
  | AList [_] => TypeError
  | Array [x] => if Rlt_dec x 100 then TypeError else Many [stirling x]
  | AList l | Array l => several l
  end.
