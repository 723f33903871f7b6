-Q theories Verif
theories/Base.v
theories/Frequency.v
theories/Task.v
theories/State.v
theories/System.v
theories/Spec.v
theories/Tactics.v
theories/Inv.v
theories/Own.v
theories/Life.v
theories/Count.v
theories/Quiet.v
theories/Timing.v
theories/Arrival.v
theories/Phase.v
theories/Rearm.v
theories/Sched.v
theories/Interval.v
theories/Lost.v
theories/Panics.v
theories/Zero.v
theories/Clock.v
theories/Added.v
theories/Drift.v
theories/Scen.v
theories/PropTiming.v
theories/PropLife.v
theories/Cases.v
theories/Frame.v
theories/Meanwhile.v
theories/Inst.v
theories/Ended.v
theories/Origin.v
theories/Fifo.v
theories/PropInst.v
theories/PropSched.v
theories/PropOps.v
theories/PropAdvance.v
theories/PropRemove.v
theories/Account.v
theories/PropLimit.v
theories/Way.v
theories/Settle.v
theories/Crash.v
theories/PropCrash.v
theories/Ends.v
theories/PropEnds.v
theories/PropEnd.v
theories/Chain.v
theories/Kept.v
theories/PropChain.v
theories/PropWait.v
theories/PropSweep.v
theories/PropPile.v
theories/Sweeper.v
theories/PropTimeout.v
theories/Cron.v
theories/PropCron.v
theories/Builder.v
theories/PropBuilder.v
theories/PropNightly.v
theories/Shell.v
theories/PropShell.v
theories/Launch.v
theories/PropLaunch.v
theories/Fleet.v
theories/PropFleet.v
theories/Locks.v
theories/PropLocks.v
theories/Routine.v
theories/PropRoutine.v
theories/RepoTests.v
theories/Live.v
theories/LiveEnd.v
theories/PropLive.v
theories/PropCalm.v
theories/PropWatch.v
theories/PropCancel.v
theories/PropEnding.v
theories/PropNext.v
theories/Stay.v
theories/PropOrphan.v
theories/PropAsk.v
theories/PropExact.v
theories/PropAgain.v
theories/PropEarly.v
theories/PropUpdated.v
theories/PropReuse.v
theories/PropShared.v
theories/PropSettings.v
theories/Ticker.v
theories/Apart.v
theories/ApartRun.v
theories/PropApart.v
theories/PropBudget.v
theories/Names.v
theories/PropNames.v
theories/Shift.v
theories/PropShift.v
theories/Aged.v
theories/PropAged.v
theories/PropTicker.v
